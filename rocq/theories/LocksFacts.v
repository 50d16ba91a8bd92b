(** Mutual exclusion, absence of races and deadlocks, and linearisation of concurrent calls. *)
From Coq Require Import ZArith Bool List Arith Lia Permutation.
From Verif Require Import Base F64 Coordinate Segment Polygon Graph SpecGraph GraphFacts GraphMore Locks.
Import ListNotations.
Local Open Scope nat_scope.

(** ** One call in isolation *)
Definition pair_valid (n i j : nat) : Prop := i < n /\ j < n /\ i <> j.
Definition valid (n : nat) (d : dcall) : Prop :=
  match d with
  | DAdd i j _ | DRem i j | DHas i j | DCross i j => pair_valid n i j
  | DNeigh i => i < n
  end.

Definition hold_step (h : list (nat * bool)) (ins : instr) : list (nat * bool) :=
  match ins with
  | ILock x l => (l, x) :: h
  | IUnlock x l => drop_hold x l h
  | _ => h
  end.
Definition held_of (pre : list instr) : list (nat * bool) := fold_left hold_step pre [].
Lemma held_snoc pre ins : held_of (pre ++ [ins]) = hold_step (held_of pre) ins.
Proof. unfold held_of. rewrite fold_left_app. reflexivity. Qed.

Definition read_of (ins : instr) : list nat := match ins with IRead k => [k] | _ => [] end.
Definition reads (pre : list instr) : list nat := flat_map read_of pre.
Lemma reads_snoc pre ins : reads (pre ++ [ins]) = reads pre ++ read_of ins.
Proof. unfold reads. rewrite flat_map_app. cbn [flat_map]. rewrite app_nil_r. reflexivity. Qed.
Lemma reads_map l : reads (map IRead l) = l.
Proof. induction l as [|x l IH]; [reflexivity|]. cbn. rewrite <- IH at 2. reflexivity. Qed.

Definition is_access (ins : instr) : bool := match ins with IRead _ | IOr _ _ | IZero _ => true | _ => false end.
Definition is_quiet (ins : instr) : bool := match ins with ILock _ _ | IRead _ => true | _ => false end.
Definition quiet (pre : list instr) : bool := forallb is_quiet pre.

Lemma reads_split s n : forall pre u suf, map IRead (seq s n) ++ [u] = pre ++ suf ->
  (exists m, m <= n /\ pre = map IRead (seq s m) /\ suf = map IRead (seq (s + m) (n - m)) ++ [u]) \/
  (pre = map IRead (seq s n) ++ [u] /\ suf = []).
Proof.
  revert s. induction n as [|n IH]; intros s pre u suf E; cbn [seq map app] in E.
  - destruct pre as [|p pre]; cbn [app] in E.
    + left. exists 0. cbn. split; [lia|]. split; [reflexivity|]. symmetry. exact E.
    + inversion E as [[E1 E2]]. symmetry in E2. apply app_eq_nil in E2. destruct E2; subst. right. auto.
  - destruct pre as [|p pre]; cbn [app] in E.
    + left. exists 0. split; [lia|]. split; [reflexivity|]. rewrite Nat.add_0_r, Nat.sub_0_r. cbn [seq map app]. symmetry. exact E.
    + inversion E as [[E1 E2]]. destruct (IH (S s) pre u suf E2) as [(m & L & P1 & P2)|[P1 P2]].
      * left. exists (S m). split; [lia|]. split; [cbn [seq map]; rewrite P1; reflexivity|].
        rewrite P2. replace (S s + m) with (s + S m) by lia. reflexivity.
      * right. subst. auto.
Qed.
Lemma held_reads h l : fold_left hold_step (map IRead l) h = h.
Proof. induction l as [|x l IH]; [reflexivity|]. exact IH. Qed.

Lemma two_locks x i j : i <> j -> exists a b, lock_both x i j = [ILock x a; ILock x b] /\ a < b /\
  ((a = i /\ b = j) \/ (a = j /\ b = i)).
Proof.
  intros N. unfold lock_both. destruct (Nat.ltb_spec i j); [exists i, j|exists j, i]; repeat split; auto; lia.
Qed.

(** the cell [i + n*j] is protected by lock [j] *)
Lemma cell_lock n i j : i < n -> (i + n * j) / n = j.
Proof. intros H. replace (i + n * j) with (i + j * n) by lia. rewrite Nat.div_add by lia. rewrite Nat.div_small by lia. reflexivity. Qed.
Lemma cell_bound n i j : i < n -> j < n -> i + n * j < n * n.
Proof. nia. Qed.

(** what a position inside a call knows *)
Record position (n : nat) (d : dcall) (pre : list instr) (ins : instr) (suf : list instr) : Prop := {
  p_read : forall k, ins = IRead k -> k < n * n /\ exists x, In (k / n, x) (held_of pre);
  p_write : forall k, (exists m, ins = IOr k m) \/ ins = IZero k -> k < n * n /\ In (k / n, true) (held_of pre);
  p_lock : forall x l, ins = ILock x l -> forall l' x', In (l', x') (held_of pre) -> l' < l;
  p_protect : quiet pre = true -> forall k, In k (reads pre) -> exists x, In (k / n, x) (held_of pre)
}.

Ltac split_code E :=
  repeat match type of E with
  | _ :: _ = ?p ++ _ => destruct p as [|? p]; cbn [app] in E; [|apply (f_equal (fun l => (hd (IZero 0) l, tl l))) in E; cbn [hd tl] in E; inversion E as [[? E']]; clear E; rename E' into E]
  end.

Lemma drop_top x l h : drop_hold x l ((l, x) :: h) = h.
Proof. cbn [drop_hold]. rewrite Nat.eqb_refl, Bool.eqb_reflx. reflexivity. Qed.
Lemma drop_other x l l' h : l' <> l -> drop_hold x l ((l', x) :: h) = (l', x) :: drop_hold x l h.
Proof. intros N. cbn [drop_hold]. rewrite (proj2 (Nat.eqb_neq l' l) N). reflexivity. Qed.

Lemma code_held n d : valid n d -> held_of (code n d) = [].
Proof.
  intros V. destruct d as [i j m|i j|i j|i j|i]; cbn [code valid] in *.
  1-4: destruct V as (_ & _ & N); unfold lock_both, unlock_both; destruct (i <? j); cbn [app]; unfold held_of; cbn [fold_left hold_step];
       repeat first [rewrite drop_top|rewrite drop_other by auto]; reflexivity.
  unfold held_of. cbn [app fold_left hold_step]. rewrite fold_left_app, held_reads. cbn [fold_left hold_step]. apply drop_top.
Qed.

Lemma code_position n d pre ins suf : valid n d -> code n d = pre ++ ins :: suf -> position n d pre ins suf.
Proof.
  intros V E.
  assert (Two : forall x i j mid, pair_valid n i j -> 
     (forall ins, In ins mid -> (ins = IRead (i + n * j) \/ (x = true /\ ((exists m, ins = IOr (i + n * j) m) \/ ins = IZero (i + n * j))))) ->
     length mid <= 2 ->
     lock_both x i j ++ mid ++ unlock_both x i j = pre ++ ins :: suf -> position n d pre ins suf).
  { clear E V. intros x i j mid (Vi & Vj & N) Hm Lm E.
    pose proof (cell_bound n i j Vi Vj) as Cb. pose proof (cell_lock n i j Vi) as Cl.
    destruct (two_locks x i j N) as (a & b & Eab & Lab & Hab). rewrite Eab in E. unfold unlock_both in E.
    assert (Hj : j = a \/ j = b) by lia.
    assert (Hmid : forall y, In y mid -> forall k, y = IRead k \/ (exists m, y = IOr k m) \/ y = IZero k -> k = i + n * j).
    { intros y Hy k Hk. destruct (Hm y Hy) as [->|[_ [[m ->]| ->]]]; destruct Hk as [Hk|[[m' Hk]|Hk]]; congruence. }
    assert (Hmw : forall y, In y mid -> forall k, (exists m, y = IOr k m) \/ y = IZero k -> x = true).
    { intros y Hy k Hk. destruct (Hm y Hy) as [->|[X _]]; [|exact X]. destruct Hk as [[m' Hk]|Hk]; discriminate. }
    assert (Hnl : forall y, In y mid -> forall x' l', y <> ILock x' l').
    { intros y Hy x' l'. destruct (Hm y Hy) as [->|[_ [[m ->]| ->]]]; discriminate. }
    cbn [app] in E.
    destruct pre as [|p1 pre]; cbn [app] in E; injection E as E1 E; [|destruct pre as [|p2 pre]; cbn [app] in E; injection E as E2 E].
    - subst ins. split; try discriminate; [intros k [[m D]|D]; discriminate|intros; contradiction|intros _ k []].
    - subst ins p1. split; try discriminate; [intros k [[m D]|D]; discriminate| |intros _ k []].
      intros x' l' D l'' x'' [H|[]]. inversion D; inversion H; subst. exact Lab.
    - subst p1 p2.
      (* now inside mid ++ unlocks *)
      assert (Hpre : forall q, held_of (ILock x a :: ILock x b :: q) = fold_left hold_step q [(b, x); (a, x)]) by reflexivity.
      assert (In2 : In (j, x) [(b, x); (a, x)]) by (destruct Hj as [->| ->]; [right; left|left]; reflexivity).
      destruct mid as [|m1 mid]; [|destruct mid as [|m2 mid]; [|destruct mid; [|cbn in Lm; lia]]].
      + cbn [app] in E. destruct pre as [|p3 pre]; cbn [app] in E; injection E as E3 E; [|destruct pre as [|p4 pre]; cbn [app] in E; injection E as E4 E].
        * subst ins. split; try discriminate; [intros k [[m D]|D]; discriminate|intros _ k []].
        * subst. split; try discriminate; [intros k [[m D]|D]; discriminate].
        * destruct pre; discriminate.
      + cbn [app] in E. destruct pre as [|p3 pre]; cbn [app] in E; injection E as E3 E; [|destruct pre as [|p4 pre]; cbn [app] in E; injection E as E4 E].
        * subst m1. split; rewrite ?Hpre; cbn [fold_left].
          -- intros k K. rewrite (Hmid ins (or_introl eq_refl) k) by auto. split; [exact Cb|]. rewrite Cl. exists x. exact In2.
          -- intros k K. rewrite (Hmid ins (or_introl eq_refl) k) by auto. split; [exact Cb|]. rewrite Cl.
             rewrite <- (Hmw ins (or_introl eq_refl) k K). exact In2.
          -- intros x' l' K. elim (Hnl ins (or_introl eq_refl) x' l' K).
          -- intros _ k Hk. cbn in Hk. contradiction.
        * subst. split; try discriminate; [intros k [[m D]|D]; discriminate|].
          intros _ k Hk. cbn [reads flat_map app read_of] in Hk. rewrite Hpre.
          destruct (Hm p3 (or_introl eq_refl)) as [->|[_ [[m ->]| ->]]]; cbn in Hk; try contradiction.
          destruct Hk as [<-|[]]. cbn [fold_left hold_step]. rewrite Cl. exists x. exact In2.
        * destruct pre as [|p5 pre]; cbn [app] in E; [|destruct pre; discriminate].
          injection E as E5 E. subst. split; try discriminate; [intros k [[m D]|D]; discriminate|].
          intros Q. unfold quiet in Q. cbn [forallb is_quiet] in Q. rewrite !andb_false_r in Q. discriminate.
      + cbn [app] in E. destruct pre as [|p3 pre]; cbn [app] in E; injection E as E3 E; [|destruct pre as [|p4 pre]; cbn [app] in E; injection E as E4 E].
        * subst m1. split; rewrite ?Hpre; cbn [fold_left].
          -- intros k K. rewrite (Hmid ins (or_introl eq_refl) k) by auto. split; [exact Cb|]. rewrite Cl. exists x. exact In2.
          -- intros k K. rewrite (Hmid ins (or_introl eq_refl) k) by auto. split; [exact Cb|]. rewrite Cl.
             rewrite <- (Hmw ins (or_introl eq_refl) k K). exact In2.
          -- intros x' l' K. elim (Hnl ins (or_introl eq_refl) x' l' K).
          -- intros _ k Hk. cbn in Hk. contradiction.
        * subst m1 m2.
          assert (H3 : hold_step [(b, x); (a, x)] p3 = [(b, x); (a, x)]).
          { destruct (Hm p3 (or_introl eq_refl)) as [->|[_ [[m ->]| ->]]]; reflexivity. }
          split; rewrite ?Hpre; cbn [fold_left]; rewrite ?H3.
          -- intros k K. rewrite (Hmid ins (or_intror (or_introl eq_refl)) k) by auto. split; [exact Cb|]. rewrite Cl. exists x. exact In2.
          -- intros k K. rewrite (Hmid ins (or_intror (or_introl eq_refl)) k) by auto. split; [exact Cb|]. rewrite Cl.
             rewrite <- (Hmw ins (or_intror (or_introl eq_refl)) k K). exact In2.
          -- intros x' l' K. elim (Hnl ins (or_intror (or_introl eq_refl)) x' l' K).
          -- intros _ k Hk. cbn [reads flat_map app read_of] in Hk.
             destruct (Hm p3 (or_introl eq_refl)) as [->|[_ [[m ->]| ->]]]; cbn in Hk; try contradiction.
             destruct Hk as [<-|[]]. rewrite Cl. exists x. exact In2.
        * destruct pre as [|p5 pre]; cbn [app] in E; injection E as E5 E.
          -- subst. split; try discriminate; [intros k [[m D]|D]; discriminate|].
             intros _ k Hk. cbn [reads flat_map app read_of] in Hk. rewrite app_nil_r in Hk. apply in_app_or in Hk. rewrite Hpre.
             assert (H34 : fold_left hold_step [p3; p4] [(b, x); (a, x)] = [(b, x); (a, x)]).
             { cbn [fold_left]. destruct (Hm p3 (or_introl eq_refl)) as [->|[_ [[m ->]| ->]]], (Hm p4 (or_intror (or_introl eq_refl))) as [->|[_ [[m' ->]| ->]]]; reflexivity. }
             rewrite H34. exists x.
             assert (k = i + n * j) as ->.
             { destruct Hk as [Hk|Hk]; [apply (Hmid p3 (or_introl eq_refl))|apply (Hmid p4 (or_intror (or_introl eq_refl)))]; left.
               - destruct p3; cbn in Hk; try contradiction. destruct Hk as [<-|[]]. reflexivity.
               - destruct p4; cbn in Hk; try contradiction. destruct Hk as [<-|[]]. reflexivity. }
             rewrite Cl. exact In2.
          -- destruct pre as [|p6 pre]; cbn [app] in E; [|destruct pre; discriminate].
             injection E as E6 E. subst. split; try discriminate; [intros k [[m D]|D]; discriminate|].
             intros Q. unfold quiet in Q. cbn [forallb is_quiet] in Q. rewrite !andb_false_r in Q. discriminate. }
  destruct d as [i j m|i j|i j|i j|i]; cbn [code valid] in *.
  - apply (Two true i j [IRead (i + n * j); IOr (i + n * j) m]); auto.
    intros y [<-|[<-|[]]]; [left; reflexivity|right; split; [reflexivity|left; eauto]].
  - apply (Two true i j [IZero (i + n * j)]); auto. intros y [<-|[]]. right. auto.
  - apply (Two false i j [IRead (i + n * j)]); auto. intros y [<-|[]]. left. reflexivity.
  - apply (Two false i j [IRead (i + n * j)]); auto. intros y [<-|[]]. left. reflexivity.
  - clear Two. cbn [app] in E. destruct pre as [|p1 pre]; cbn [app] in E; injection E as E1 E.
    + subst ins. split; try discriminate; [intros k [[m D]|D]; discriminate|intros; contradiction|intros _ k []].
    + subst p1.
      assert (Cell : forall k, In k (seq (i * n) n) -> k < n * n /\ k / n = i).
      { intros k Hk. apply in_seq in Hk. split; [nia|]. symmetry. apply (Nat.div_unique k n i (k - i * n)); lia. }
      destruct (reads_split (i * n) n pre (IUnlock false i) (ins :: suf) E) as [(m & L & P1 & P2)|[_ P2]]; [|discriminate].
      assert (Hh : held_of (ILock false i :: pre) = [(i, false)]).
      { unfold held_of. cbn [fold_left hold_step]. rewrite P1. apply held_reads. }
      assert (Hr : reads (ILock false i :: pre) = seq (i * n) m).
      { change (reads (ILock false i :: pre)) with (reads pre). rewrite P1. apply reads_map. }
      split; rewrite ?Hh, ?Hr.
      * intros k ->. destruct (n - m) as [|r] eqn:Er; cbn [seq map app] in P2; [discriminate|]. injection P2 as P2 _. subst k.
        destruct (Cell (i * n + m)) as [C1 C2]; [apply in_seq; lia|]. split; [exact C1|]. rewrite C2. exists false. left. reflexivity.
      * intros k K. destruct (n - m) as [|r]; cbn [seq map app] in P2; injection P2 as P2 _; subst ins; destruct K as [[m' K]|K]; discriminate.
      * intros x l ->. destruct (n - m) as [|r]; cbn [seq map app] in P2; discriminate.
      * intros _ k Hk. destruct (Cell k) as [_ C2]; [apply in_seq in Hk; apply in_seq; lia|]. rewrite C2. exists false. left. reflexivity.
Qed.

(** ** Sequential meaning of a call: new cells and the values it reads *)
Definition cell (cells : list Z) (k : nat) : Z := nth k cells 0%Z.
Definition exec (n : nat) (cells : list Z) (d : dcall) : list Z * list Z :=
  match d with
  | DAdd i j m => (upd cells (i + n * j) (Z.lor (cell cells (i + n * j)) (flag_bits m)), [cell cells (i + n * j)])
  | DRem i j => (upd cells (i + n * j) 0%Z, [])
  | DHas i j | DCross i j => (cells, [cell cells (i + n * j)])
  | DNeigh i => (cells, map (cell cells) (seq (i * n) n))
  end.

Lemma code_access n d pre ins suf : valid n d -> code n d = pre ++ ins :: suf -> is_access ins = true ->
  quiet pre = true /\
  (existsb is_access suf = true -> exists k, ins = IRead k) /\
  (existsb is_access suf = false -> forall cells,
     match ins with
     | IRead k => exec n cells d = (cells, map (cell cells) (reads pre) ++ [cell cells k])
     | IOr k m => exec n cells d = (upd cells k (Z.lor (last (map (cell cells) (reads pre)) 0%Z) (flag_bits m)), map (cell cells) (reads pre))
     | IZero k => exec n cells d = (upd cells k 0%Z, map (cell cells) (reads pre))
     | _ => True
     end).
Proof.
  intros V E A. destruct d as [i j m|i j|i j|i j|i]; cbn [code valid] in *.
  1-4: destruct V as (_ & _ & N); match type of E with context [lock_both ?x _ _] => destruct (two_locks x i j N) as (a & b & Eab & _ & _) end;
       rewrite Eab in E; unfold unlock_both in E; cbn [app] in E;
       destruct pre as [|p1 pre]; cbn [app] in E; injection E as E1 E; [subst ins; discriminate A|];
       destruct pre as [|p2 pre]; cbn [app] in E; injection E as E2 E; [subst ins; discriminate A|];
       destruct pre as [|p3 pre]; cbn [app] in E; injection E as E3 E.
  - subst. cbn. split; [reflexivity|]. split; [eauto|]. discriminate.
  - destruct pre as [|p4 pre]; cbn [app] in E; injection E as E4 E.
    + subst. cbn. split; [reflexivity|]. split; [discriminate|]. reflexivity.
    + exfalso. destruct pre as [|p5 pre]; cbn [app] in E; injection E as E5 E; [subst; discriminate A|].
      destruct pre as [|p6 pre]; cbn [app] in E; [injection E as E6 E; subst; discriminate A|destruct pre; discriminate E].
  - subst. cbn. split; [reflexivity|]. split; [discriminate|]. reflexivity.
  - exfalso. destruct pre as [|p5 pre]; cbn [app] in E; injection E as E5 E; [subst; discriminate A|].
    destruct pre as [|p6 pre]; cbn [app] in E; [injection E as E6 E; subst; discriminate A|destruct pre; discriminate E].
  - subst. cbn. split; [reflexivity|]. split; [discriminate|]. reflexivity.
  - exfalso. destruct pre as [|p5 pre]; cbn [app] in E; injection E as E5 E; [subst; discriminate A|].
    destruct pre as [|p6 pre]; cbn [app] in E; [injection E as E6 E; subst; discriminate A|destruct pre; discriminate E].
  - subst. cbn. split; [reflexivity|]. split; [discriminate|]. reflexivity.
  - exfalso. destruct pre as [|p5 pre]; cbn [app] in E; injection E as E5 E; [subst; discriminate A|].
    destruct pre as [|p6 pre]; cbn [app] in E; [injection E as E6 E; subst; discriminate A|destruct pre; discriminate E].
  - cbn [app] in E. destruct pre as [|p1 pre]; cbn [app] in E; injection E as E1 E; [subst ins; discriminate A|]. subst p1.
    destruct (reads_split (i * n) n pre (IUnlock false i) (ins :: suf) E) as [(m & L & P1 & P2)|[_ P2]]; [|discriminate].
    assert (Q : forall l, forallb is_quiet (map IRead l) = true) by (induction l; auto).
    split; [unfold quiet; cbn [forallb is_quiet]; rewrite P1; apply Q|].
    destruct (n - m) as [|r] eqn:Er; cbn [seq map app] in P2; injection P2 as P2 P3; subst ins; [discriminate A|].
    split; [eauto|]. intros Nx cells. cbn [exec].
    assert (r = 0) as ->. { destruct r; [reflexivity|]. subst suf. cbn in Nx. discriminate. }
    change (reads (ILock false i :: pre)) with (reads pre). rewrite P1, reads_map.
    replace n with (m + 1) at 2 by lia. rewrite seq_app, map_app. reflexivity.
Qed.

Lemma code_last n d pre suf : valid n d -> code n d = pre ++ suf -> suf = [] -> held_of pre = [].
Proof. intros V E ->. rewrite app_nil_r in E. subst pre. apply code_held, V. Qed.
Lemma code_has_access n d : valid n d -> existsb is_access (code n d) = true.
Proof.
  intros V. destruct d as [i j m|i j|i j|i j|i]; cbn [code valid] in *.
  1-4: unfold lock_both; destruct (i <? j); reflexivity.
  destruct n; [lia|]. reflexivity.
Qed.
Lemma code_nonempty n d : code n d <> [].
Proof. destruct d as [i j m|i j|i j|i j|i]; cbn [code]; unfold lock_both; try destruct (i <? j); discriminate. Qed.

(** ** The log: which call took effect when, and what it read *)
Definition entry := (nat * dcall * list Z)%type.
Definition commit (s : sys) (i : nat) : list entry :=
  match nth_error (s_threads s) i with
  | None => []
  | Some t =>
      match t_code t with
      | IRead k :: c => if existsb is_access c then [] else [(i, t_cur t, t_regs t ++ [cell (s_cells s) k])]
      | IOr _ _ :: c | IZero _ :: c => if existsb is_access c then [] else [(i, t_cur t, t_regs t)]
      | _ => []
      end
  end.
Inductive logged (n : nat) (pol : sys -> nat -> bool) (s : sys) : list entry -> sys -> Prop :=
| logged_nil : logged n pol s [] s
| logged_snoc L s1 i s2 : logged n pol s L s1 -> step n pol s1 i s2 -> logged n pol s (L ++ commit s1 i) s2.

Lemma steps_logged n pol s s' : steps n pol s s' <-> exists L, logged n pol s L s'.
Proof.
  split.
  - induction 1 as [|s i s1 s2 _ (L & IH) St]; [exists []; constructor|]. eexists. econstructor; eauto.
  - intros (L & H). induction H; [constructor|]. econstructor; eauto.
Qed.

(** replaying the log sequentially *)
Fixpoint replays (n : nat) (cells : list Z) (L : list entry) (cells' : list Z) : Prop :=
  match L with
  | [] => cells' = cells
  | (_, d, r) :: L' => snd (exec n cells d) = r /\ replays n (fst (exec n cells d)) L' cells'
  end.
Lemma replays_snoc n cells L c1 e : replays n cells L c1 ->
  snd (exec n c1 (snd (fst e))) = snd e -> replays n cells (L ++ [e]) (fst (exec n c1 (snd (fst e)))).
Proof.
  revert cells. induction L as [|[[t d] r] L IH]; intros cells H E; cbn [app replays] in *.
  - subst c1. destruct e as [[t d] r]. cbn in *. auto.
  - destruct H as [H1 H2]. split; [exact H1|]. apply IH; auto.
Qed.

Definition calls_in (i : nat) (L : list entry) : list dcall := map (fun e => snd (fst e)) (filter (fun e => fst (fst e) =? i) L).
Lemma calls_in_app i L1 L2 : calls_in i (L1 ++ L2) = calls_in i L1 ++ calls_in i L2.
Proof. unfold calls_in. rewrite filter_app, map_app. reflexivity. Qed.

(** ** The invariant *)
Definition pending (t : thread) : list dcall := if existsb is_access (t_code t) then [t_cur t] else [].

Definition thread_ok (n : nat) (cells : list Z) (L : list entry) (i : nat) (calls0 : list dcall) (t : thread) : Prop :=
  Forall (valid n) (t_calls t) /\
  ((t_code t = [] /\ t_held t = [] /\ calls_in i L ++ t_calls t = calls0) \/
   (exists pre, t_code t <> [] /\ code n (t_cur t) = pre ++ t_code t /\ valid n (t_cur t) /\ t_held t = held_of pre /\
      (quiet pre = true -> t_regs t = map (cell cells) (reads pre)) /\
      calls_in i L ++ pending t ++ t_calls t = calls0)).

Record Inv (n : nat) (cells0 : list Z) (calls0 : list (list dcall)) (L : list entry) (s : sys) : Prop := {
  i_cells : length (s_cells s) = n * n;
  i_threads : length (s_threads s) = length calls0;
  i_replay : replays n cells0 L (s_cells s);
  i_ok : forall i t cs, nth_error (s_threads s) i = Some t -> nth_error calls0 i = Some cs -> thread_ok n (s_cells s) L i cs t;
  i_mutex : forall i1 i2 t1 t2 l x, i1 <> i2 -> nth_error (s_threads s) i1 = Some t1 -> nth_error (s_threads s) i2 = Some t2 ->
    In (l, true) (t_held t1) -> ~ In (l, x) (t_held t2)
}.

Lemma nth_upd (cells : list Z) k z k' : cell (upd cells k z) k' = if (k' =? k) && (k <? length cells) then z else cell cells k'.
Proof.
  unfold cell. destruct ((k' =? k) && (k <? length cells)) eqn:E.
  - apply nth_error_nth. rewrite nth_error_upd, E. reflexivity.
  - destruct (nth_error cells k') as [y|] eqn:Y.
    + rewrite (nth_error_nth _ _ 0%Z Y). apply nth_error_nth. rewrite nth_error_upd, E. exact Y.
    + rewrite (nth_overflow cells) by (apply nth_error_None; exact Y). apply nth_overflow. rewrite upd_length. apply nth_error_None. exact Y.
Qed.

Lemma inv_update n cells0 calls0 L s i t t' cells' L' :
  Inv n cells0 calls0 L s -> nth_error (s_threads s) i = Some t ->
  length cells' = n * n -> replays n cells0 L' cells' ->
  (forall cs, nth_error calls0 i = Some cs -> thread_ok n cells' L' i cs t') ->
  (forall i2, i2 <> i -> calls_in i2 L' = calls_in i2 L) ->
  (forall i2 t2 l x, i2 <> i -> nth_error (s_threads s) i2 = Some t2 ->
     (In (l, true) (t_held t') -> ~ In (l, x) (t_held t2)) /\ (In (l, true) (t_held t2) -> ~ In (l, x) (t_held t'))) ->
  (forall i2 t2 k x, i2 <> i -> nth_error (s_threads s) i2 = Some t2 -> In (k / n, x) (t_held t2) -> cell cells' k = cell (s_cells s) k) ->
  Inv n cells0 calls0 L' (mkS cells' (upd (s_threads s) i t')).
Proof.
  intros I Ht Lc Rp Ok Pr Mx Un. 
  assert (Li : i < length (s_threads s)) by (apply nth_error_Some; congruence).
  assert (Nth : forall j, nth_error (upd (s_threads s) i t') j = if j =? i then Some t' else nth_error (s_threads s) j).
  { intros j. rewrite nth_error_upd. rewrite (proj2 (Nat.ltb_lt _ _) Li), andb_true_r. reflexivity. }
  split; cbn [s_cells s_threads].
  - exact Lc.
  - rewrite upd_length. apply (i_threads _ _ _ _ _ I).
  - exact Rp.
  - intros j u cs. rewrite Nth. destruct (Nat.eqb_spec j i) as [->|Nj].
    + intros E. inversion E; subst u. apply Ok.
    + intros Hu Hc. destruct (i_ok _ _ _ _ _ I j u cs Hu Hc) as [V [(C & H & P)|(pre & C & E & Vc & H & R & P)]].
      * split; [exact V|]. left. rewrite (Pr j Nj). auto.
      * split; [exact V|]. right. exists pre. rewrite (Pr j Nj). repeat (split; [assumption|]). split; [|exact P].
        intros Q. rewrite (R Q). apply map_ext_in. intros k Hk. symmetry.
        destruct (t_code u) as [|ins suf] eqn:Eu; [congruence|].
        pose proof (code_position n _ pre ins suf Vc E) as Po. destruct (p_protect _ _ _ _ _ Po Q k Hk) as [x Hx].
        apply (Un j u k x Nj Hu). rewrite H. exact Hx.
  - intros i1 i2 t1 t2 l x N12. rewrite !Nth. destruct (Nat.eqb_spec i1 i) as [->|N1], (Nat.eqb_spec i2 i) as [->|N2].
    + congruence.
    + intros E1 E2. inversion E1; subst t1. destruct (Mx i2 t2 l x N2 E2) as [M _]. exact M.
    + intros E1 E2. inversion E2; subst t2. destruct (Mx i1 t1 l x N1 E1) as [_ M]. exact M.
    + apply (i_mutex _ _ _ _ _ I i1 i2 t1 t2 l x N12).
Qed.

Lemma drop_subset x l h y : In y (drop_hold x l h) -> In y h.
Proof. induction h as [|[l' x'] h IH]; cbn [drop_hold]; [auto|]. destruct ((l' =? l) && Bool.eqb x' x); [right; auto|]. intros [<-|H]; [left; reflexivity|right; auto]. Qed.

Lemma code_cons_snoc {A} (pre : list A) x c : pre ++ x :: c = (pre ++ [x]) ++ c.
Proof. rewrite <- app_assoc. reflexivity. Qed.

(** a thread after one more instruction that is not an access *)
Lemma thread_advance n cells L i cs t ins c pre regs' :
  Forall (valid n) (t_calls t) -> valid n (t_cur t) -> code n (t_cur t) = pre ++ ins :: c ->
  (quiet (pre ++ [ins]) = true -> regs' = map (cell cells) (reads (pre ++ [ins]))) ->
  calls_in i L ++ (if existsb is_access c then [t_cur t] else []) ++ t_calls t = cs ->
  thread_ok n cells L i cs (mkT c regs' (held_of (pre ++ [ins])) (t_cur t) (t_calls t)).
Proof.
  intros V Vc E R P. split; [exact V|]. cbn [t_code t_regs t_held t_cur t_calls]. rewrite code_cons_snoc in E. destruct c as [|ins2 c].
  - left. split; [reflexivity|]. split; [|exact P]. apply (code_last n (t_cur t) _ [] Vc E eq_refl).
  - right. exists (pre ++ [ins]). split; [discriminate|]. split; [exact E|]. split; [exact Vc|]. split; [reflexivity|]. split; [exact R|exact P].
Qed.

Lemma quiet_snoc pre ins : quiet (pre ++ [ins]) = quiet pre && is_quiet ins.
Proof. unfold quiet. rewrite forallb_app. cbn [forallb]. rewrite andb_true_r. reflexivity. Qed.

Lemma step_inv n pol cells0 calls0 L s i s' :
  Inv n cells0 calls0 L s -> step n pol s i s' -> Inv n cells0 calls0 (L ++ commit s i) s'.
Proof.
  intros I St.
  assert (Calls : forall t, nth_error (s_threads s) i = Some t -> exists cs, nth_error calls0 i = Some cs).
  { intros t Ht. destruct (nth_error calls0 i) eqn:E; [eauto|]. apply nth_error_None in E.
    rewrite <- (i_threads _ _ _ _ _ I) in E. apply nth_error_None in E. congruence. }
  assert (Other : forall i2 e, i2 <> i -> fst (fst e) = i -> calls_in i2 (L ++ [e]) = calls_in i2 L).
  { intros i2 [[j d] r] N E. cbn in E. subst j. rewrite calls_in_app. unfold calls_in at 2. cbn [filter fst].
    rewrite (proj2 (Nat.eqb_neq i i2)) by congruence. cbn. apply app_nil_r. }
  assert (Own : forall d r, calls_in i (L ++ [(i, d, r)]) = calls_in i L ++ [d]).
  { intros d r. rewrite calls_in_app. unfold calls_in at 2. cbn [filter fst]. rewrite Nat.eqb_refl. reflexivity. }
  destruct St as [t d ds Ht Hc Hd|t l c Ht Hc Fr|t l c Ht Hc Fr Po|t x l c Ht Hc|t k c z Ht Hc Hz|t k m c Ht Hc Hk|t k c Ht Hc Hk];
    destruct (Calls t Ht) as [cs Hcs]; destruct (i_ok _ _ _ _ _ I i t cs Ht Hcs) as [V [(C & H & P)|(pre & C & E & Vc & H & R & P)]];
    try congruence; unfold commit; rewrite Ht, Hc, ?app_nil_r.
  - (* next call *)
    rewrite Hd in V. inversion V as [|? ? V1 V2]; subst. unfold set_thread. eapply inv_update; eauto.
    + apply (i_cells _ _ _ _ _ I).
    + apply (i_replay _ _ _ _ _ I).
    + intros cs' Hcs'. assert (cs' = calls_in i L ++ t_calls t) as -> by congruence. split; [exact V2|]. right. exists []. cbn [t_code t_cur t_held t_regs t_calls].
      split; [apply code_nonempty|]. split; [reflexivity|]. split; [exact V1|]. split; [exact H|]. split; [reflexivity|].
      unfold pending. cbn [t_code t_cur]. rewrite code_has_access by exact V1. rewrite Hd. reflexivity.
    + cbn [t_held]. rewrite H. intros i2 t2 l x N2 _. split; [intros []|auto].
  - (* exclusive lock *)
    rewrite Hc in E. unfold set_thread. eapply inv_update; eauto.
    + apply (i_cells _ _ _ _ _ I).
    + apply (i_replay _ _ _ _ _ I).
    + intros cs' Hcs'. assert (cs' = cs) as -> by congruence. rewrite H. change ((l, true) :: held_of pre) with (hold_step (held_of pre) (ILock true l)). rewrite <- (held_snoc pre (ILock true l)).
      eapply thread_advance; eauto.
      * rewrite quiet_snoc, reads_snoc. cbn [is_quiet read_of]. rewrite andb_true_r, app_nil_r. exact R.
      * unfold pending in P. rewrite Hc in P. exact P.
    + cbn [t_held]. intros i2 t2 l2 x N2 H2. pose proof (i_mutex _ _ _ _ _ I) as M. split.
      * intros [Q|Q]; [inversion Q; subst; apply (Fr t2 x (nth_error_In _ _ H2))|]. apply (M i i2 t t2 l2 x (not_eq_sym N2) Ht H2 Q).
      * intros Q [Q2|Q2]; [inversion Q2; subst; apply (Fr t2 true (nth_error_In _ _ H2) Q)|]. apply (M i2 i t2 t l2 x N2 H2 Ht Q Q2).
  - (* shared lock *)
    rewrite Hc in E. unfold set_thread. eapply inv_update; eauto.
    + apply (i_cells _ _ _ _ _ I).
    + apply (i_replay _ _ _ _ _ I).
    + intros cs' Hcs'. assert (cs' = cs) as -> by congruence. rewrite H. change ((l, false) :: held_of pre) with (hold_step (held_of pre) (ILock false l)). rewrite <- (held_snoc pre (ILock false l)).
      eapply thread_advance; eauto.
      * rewrite quiet_snoc, reads_snoc. cbn [is_quiet read_of]. rewrite andb_true_r, app_nil_r. exact R.
      * unfold pending in P. rewrite Hc in P. exact P.
    + cbn [t_held]. intros i2 t2 l2 x N2 H2. pose proof (i_mutex _ _ _ _ _ I) as M. split.
      * intros [Q|Q]; [discriminate Q|]. apply (M i i2 t t2 l2 x (not_eq_sym N2) Ht H2 Q).
      * intros Q [Q2|Q2]; [inversion Q2; subst; apply (Fr t2 (nth_error_In _ _ H2) Q)|]. apply (M i2 i t2 t l2 x N2 H2 Ht Q Q2).
  - (* unlock *)
    rewrite Hc in E. unfold set_thread. eapply inv_update; eauto.
    + apply (i_cells _ _ _ _ _ I).
    + apply (i_replay _ _ _ _ _ I).
    + intros cs' Hcs'. assert (cs' = cs) as -> by congruence. rewrite H. change (drop_hold x l (held_of pre)) with (hold_step (held_of pre) (IUnlock x l)).
      rewrite <- (held_snoc pre (IUnlock x l)). eapply thread_advance; eauto.
      * rewrite quiet_snoc. cbn [is_quiet]. rewrite andb_false_r. discriminate.
      * unfold pending in P. rewrite Hc in P. exact P.
    + cbn [t_held]. intros i2 t2 l2 x2 N2 H2. pose proof (i_mutex _ _ _ _ _ I) as M. split.
      * intros Q. apply drop_subset in Q. apply (M i i2 t t2 l2 x2 (not_eq_sym N2) Ht H2 Q).
      * intros Q Q2. apply drop_subset in Q2. apply (M i2 i t2 t l2 x2 N2 H2 Ht Q Q2).
  - (* read *)
    rewrite Hc in E. destruct (code_access n _ pre (IRead k) c Vc E eq_refl) as (Q & _ & A). specialize (R Q).
    assert (Hz' : cell (s_cells s) k = z) by (unfold cell; apply nth_error_nth; exact Hz).
    assert (Adv : forall L2 cs2, calls_in i L2 ++ (if existsb is_access c then [t_cur t] else []) ++ t_calls t = cs2 ->
      thread_ok n (s_cells s) L2 i cs2 (mkT c (t_regs t ++ [z]) (t_held t) (t_cur t) (t_calls t))).
    { intros L2 cs2 P2. rewrite H. change (held_of pre) with (hold_step (held_of pre) (IRead k)). rewrite <- (held_snoc pre (IRead k)). eapply thread_advance; eauto.
      intros _. rewrite reads_snoc, map_app, R. cbn [read_of map]. rewrite Hz'. reflexivity. }
    unfold pending in P. rewrite Hc in P. cbn [existsb is_access orb] in P.
    unfold set_thread. destruct (existsb is_access c) eqn:Ac; rewrite ?app_nil_r.
    + eapply inv_update; eauto.
      * apply (i_cells _ _ _ _ _ I).
      * apply (i_replay _ _ _ _ _ I).
      * intros cs' Hcs'. apply Adv. congruence.
      * cbn [t_held]. intros i2 t2 l2 x2 N2 H2. pose proof (i_mutex _ _ _ _ _ I) as M. split; [apply (M i i2 t t2 l2 x2 (not_eq_sym N2) Ht H2)|apply (M i2 i t2 t l2 x2 N2 H2 Ht)].
    + specialize (A eq_refl (s_cells s)). cbv beta iota in A. eapply inv_update; eauto.
      * apply (i_cells _ _ _ _ _ I).
      * pose proof (replays_snoc n cells0 L (s_cells s) (i, t_cur t, t_regs t ++ [cell (s_cells s) k]) (i_replay _ _ _ _ _ I)) as K.
        cbn [fst snd] in K. rewrite A in K. cbn [fst snd] in K. apply K. rewrite R. reflexivity.
      * intros cs' Hcs'. apply Adv. rewrite Own, <- app_assoc. cbn [app]. cbn [app] in P. congruence.
      * cbn [t_held]. intros i2 t2 l2 x2 N2 H2. pose proof (i_mutex _ _ _ _ _ I) as M. split; [apply (M i i2 t t2 l2 x2 (not_eq_sym N2) Ht H2)|apply (M i2 i t2 t l2 x2 N2 H2 Ht)].
  - (* or *)
    rewrite Hc in E. destruct (code_access n _ pre (IOr k m) c Vc E eq_refl) as (Q & B & A). specialize (R Q).
    unfold pending in P. rewrite Hc in P. cbn [existsb is_access orb] in P.
    destruct (existsb is_access c) eqn:Ac; [destruct (B eq_refl) as [k' D]; discriminate D|].
    specialize (A eq_refl (s_cells s)). cbv beta iota in A. rewrite <- R in A.
    pose proof (code_position n _ pre (IOr k m) c Vc E) as Po.
    destruct (p_write _ _ _ _ _ Po k) as [_ Wk]; [left; eauto|].
    eapply inv_update; eauto.
    + rewrite upd_length. apply (i_cells _ _ _ _ _ I).
    + pose proof (replays_snoc n cells0 L (s_cells s) (i, t_cur t, t_regs t) (i_replay _ _ _ _ _ I)) as K.
      cbn [fst snd] in K. rewrite A in K. cbn [fst snd] in K. apply K. reflexivity.
    + intros cs' Hcs'. rewrite H. change (held_of pre) with (hold_step (held_of pre) (IOr k m)). rewrite <- (held_snoc pre (IOr k m)).
      eapply thread_advance; eauto.
      * rewrite quiet_snoc. cbn [is_quiet]. rewrite andb_false_r. discriminate.
      * rewrite Ac. rewrite Own, <- app_assoc. cbn [app]. cbn [app] in P. congruence.
    + cbn [t_held]. intros i2 t2 l2 x2 N2 H2. pose proof (i_mutex _ _ _ _ _ I) as M. split; [apply (M i i2 t t2 l2 x2 (not_eq_sym N2) Ht H2)|apply (M i2 i t2 t l2 x2 N2 H2 Ht)].
    + intros i2 t2 k2 x2 N2 H2 Q2. rewrite nth_upd. destruct (Nat.eqb_spec k2 k) as [->|Nk]; [|reflexivity].
      exfalso. rewrite <- H in Wk. apply (i_mutex _ _ _ _ _ I i i2 t t2 (k / n) x2 (not_eq_sym N2) Ht H2 Wk Q2).
  - (* zero *)
    rewrite Hc in E. destruct (code_access n _ pre (IZero k) c Vc E eq_refl) as (Q & B & A). specialize (R Q).
    unfold pending in P. rewrite Hc in P. cbn [existsb is_access orb] in P.
    destruct (existsb is_access c) eqn:Ac; [destruct (B eq_refl) as [k' D]; discriminate D|].
    specialize (A eq_refl (s_cells s)). cbv beta iota in A. rewrite <- R in A.
    pose proof (code_position n _ pre (IZero k) c Vc E) as Po.
    destruct (p_write _ _ _ _ _ Po k) as [_ Wk]; [right; reflexivity|].
    eapply inv_update; eauto.
    + rewrite upd_length. apply (i_cells _ _ _ _ _ I).
    + pose proof (replays_snoc n cells0 L (s_cells s) (i, t_cur t, t_regs t) (i_replay _ _ _ _ _ I)) as K.
      cbn [fst snd] in K. rewrite A in K. cbn [fst snd] in K. apply K. reflexivity.
    + intros cs' Hcs'. rewrite H. change (held_of pre) with (hold_step (held_of pre) (IZero k)). rewrite <- (held_snoc pre (IZero k)).
      eapply thread_advance; eauto.
      * rewrite quiet_snoc. cbn [is_quiet]. rewrite andb_false_r. discriminate.
      * rewrite Ac. rewrite Own, <- app_assoc. cbn [app]. cbn [app] in P. congruence.
    + cbn [t_held]. intros i2 t2 l2 x2 N2 H2. pose proof (i_mutex _ _ _ _ _ I) as M. split; [apply (M i i2 t t2 l2 x2 (not_eq_sym N2) Ht H2)|apply (M i2 i t2 t l2 x2 N2 H2 Ht)].
    + intros i2 t2 k2 x2 N2 H2 Q2. rewrite nth_upd. destruct (Nat.eqb_spec k2 k) as [->|Nk]; [|reflexivity].
      exfalso. rewrite <- H in Wk. apply (i_mutex _ _ _ _ _ I i i2 t t2 (k / n) x2 (not_eq_sym N2) Ht H2 Wk Q2).
Qed.

(** ** From the start *)
Definition from_coords (ps : list polygon) (d : dcall) : Prop :=
  match d with
  | DAdd i j _ | DRem i j | DHas i j | DCross i j => exists a b, a <> b /\ idx ps a = Some i /\ idx ps b = Some j
  | DNeigh i => exists v, idx ps v = Some i
  end.
Lemma from_coords_valid ps F g d : repr ps F g -> from_coords ps d -> valid (g_num g) d.
Proof.
  intros R H. rewrite (r_num _ _ _ R).
  assert (K : forall i j, (exists a b, a <> b /\ idx ps a = Some i /\ idx ps b = Some j) -> pair_valid (length (polygon_vertices ps)) i j).
  { intros i j (a & b & N & A & B). split; [apply (idx_sound ps a i A)|]. split; [apply (idx_sound ps b j B)|].
    intros ->. apply N. eapply idx_inj; eauto. }
  destruct d as [i j m|i j|i j|i j|i]; cbn [valid from_coords] in *; auto. destruct H as [v Hv]. apply (idx_sound ps v i Hv).
Qed.
Lemma with_index_from ps F g a b f : repr ps F g -> (forall i j, (exists a b, a <> b /\ idx ps a = Some i /\ idx ps b = Some j) -> from_coords ps (f i j)) ->
  Forall (from_coords ps) (with_index g a b f).
Proof.
  intros R H. unfold with_index. destruct (coord_eqb a b) eqn:E; [constructor|]. apply coord_eqb_neq in E.
  unfold coordinate_to_index. rewrite (r_map _ _ _ R). fold (idx ps a). fold (idx ps b).
  destruct (idx ps a) eqn:A; [|constructor]. destruct (idx ps b) eqn:B; constructor; [|constructor]. apply H. eauto.
Qed.
Lemma dcalls_from ps F g c : repr ps F g -> Forall (from_coords ps) (dcalls g c).
Proof.
  intros R. destruct c as [[a b m|a b m|a b|a b]|a b|a b|v]; cbn [dcalls]; try (apply Forall_app; split);
    try (eapply with_index_from; [eassumption|cbn [from_coords]; auto]).
  unfold coordinate_to_index. rewrite (r_map _ _ _ R). fold (idx ps v). destruct (idx ps v) eqn:E; constructor; [|constructor].
  cbn. eauto.
Qed.
Lemma flat_Forall {A B} (P : B -> Prop) (f : A -> list B) l : (forall x, In x l -> Forall P (f x)) -> Forall P (flat_map f l).
Proof. intros H. induction l as [|x l IH]; [constructor|]. cbn [flat_map]. apply Forall_app. split; [apply H; left; reflexivity|apply IH; intros; apply H; right; assumption]. Qed.

Definition all_dcalls (g : graph) (calls : list (list gcall)) : list (list dcall) := map (flat_map (dcalls g)) calls.

Lemma start_inv ps F g calls : repr ps F g -> Inv (g_num g) (g_cells g) (all_dcalls g calls) [] (start g calls).
Proof.
  intros R. unfold start. split; cbn [s_cells s_threads].
  - apply (r_len _ _ _ R).
  - unfold all_dcalls. rewrite !map_length. reflexivity.
  - reflexivity.
  - intros i t cs Ht Hc. unfold all_dcalls in Hc. rewrite nth_error_map in Ht, Hc.
    destruct (nth_error calls i) as [c|]; [|discriminate]. cbn in Ht, Hc. inversion Ht; inversion Hc; subst. split.
    + cbn [start_thread t_calls]. apply flat_Forall. intros x _. pose proof (dcalls_from ps F g x R) as D.
      rewrite Forall_forall in *. intros d Hd. apply (from_coords_valid ps F g d R), D, Hd.
    + left. cbn. auto.
  - intros i1 i2 t1 t2 l x _ H1 _. rewrite nth_error_map in H1. destruct (nth_error calls i1); [|discriminate].
    cbn in H1. inversion H1. intros [].
Qed.

Lemma logged_inv n pol cells0 calls0 s0 L s : Inv n cells0 calls0 [] s0 -> logged n pol s0 L s -> Inv n cells0 calls0 L s.
Proof. intros I H. induction H as [|L s1 i s2 _ IH St]; [exact I|]. eapply step_inv; eauto. Qed.

(** ** No races *)
Definition accesses (t : thread) (k : nat) (write : bool) : Prop :=
  match t_code t with
  | IRead k' :: _ => k' = k /\ write = false
  | IOr k' _ :: _ | IZero k' :: _ => k' = k /\ write = true
  | _ => False
  end.
Lemma no_race n cells0 calls0 L s : Inv n cells0 calls0 L s ->
  forall i1 i2 t1 t2 k w, i1 <> i2 -> nth_error (s_threads s) i1 = Some t1 -> nth_error (s_threads s) i2 = Some t2 ->
  accesses t1 k true -> ~ accesses t2 k w.
Proof.
  intros I i1 i2 t1 t2 k w N H1 H2 A1 A2.
  assert (K : forall i t k w, nth_error (s_threads s) i = Some t -> accesses t k w ->
     (exists x, In (k / n, x) (t_held t)) /\ (w = true -> In (k / n, true) (t_held t))).
  { clear - I. intros i t k w Ht A. destruct (nth_error calls0 i) as [cs|] eqn:Ec.
    2:{ apply nth_error_None in Ec. rewrite <- (i_threads _ _ _ _ _ I) in Ec. apply nth_error_None in Ec. congruence. }
    destruct (i_ok _ _ _ _ _ I i t cs Ht Ec) as [V [(C & _)|(pre & C & E & Vc & H & _)]]; unfold accesses in A; [rewrite C in A; contradiction|].
    destruct (t_code t) as [|ins suf] eqn:Et; [contradiction|]. pose proof (code_position n _ pre ins suf Vc E) as Po. rewrite H.
    destruct ins as [x l|x l|k'|k' m|k']; try contradiction; destruct A as [-> ->].
    - destruct (p_read _ _ _ _ _ Po k eq_refl) as [_ X]. split; [exact X|discriminate].
    - destruct (p_write _ _ _ _ _ Po k) as [_ X]; [left; eauto|]. split; [eauto|auto].
    - destruct (p_write _ _ _ _ _ Po k) as [_ X]; [right; reflexivity|]. split; [eauto|auto]. }
  destruct (K i1 t1 k true H1 A1) as [_ X]. destruct (K i2 t2 k w H2 A2) as [[x Y] _].
  apply (i_mutex _ _ _ _ _ I i1 i2 t1 t2 (k / n) x N H1 H2 (X eq_refl) Y).
Qed.

(** ** Progress *)
Lemma max_waiter (ts : list thread) : (exists t x l c, In t ts /\ t_code t = ILock x l :: c) ->
  exists t x l c, In t ts /\ t_code t = ILock x l :: c /\ forall t' x' l' c', In t' ts -> t_code t' = ILock x' l' :: c' -> l' <= l.
Proof.
  induction ts as [|t0 ts IH]; [intros (t & _ & _ & _ & [] & _)|]. intros W0.
  assert (D : (exists t x l c, In t ts /\ t_code t = ILock x l :: c) \/ ~ (exists t x l c, In t ts /\ t_code t = ILock x l :: c)).
  { clear. induction ts as [|t ts IH]; [right; intros (t & x & l & c & [] & _)|].
    destruct IH as [(t' & x & l & c & H & E)|H]; [left; exists t', x, l, c; split; [right|]; auto|].
    destruct (t_code t) as [|[x l|x l|k|k m|k] c] eqn:E; try (right; intros (t' & x' & l' & c' & [->|H'] & E'); [congruence|apply H; eauto 8]).
    left. exists t, x, l, c. split; [left; reflexivity|exact E]. }
  assert (Case0 : (exists x l c, t_code t0 = ILock x l :: c) \/ ~ (exists x l c, t_code t0 = ILock x l :: c)).
  { destruct (t_code t0) as [|[x l|x l|k|k m|k] c]; try (right; intros (? & ? & ? & D'); discriminate D'). left. eauto. }
  destruct D as [D|D], Case0 as [(x0 & l0 & c0 & E0)|C0].
  - destruct (IH D) as (t & x & l & c & Ht & Et & M). destruct (Nat.le_gt_cases l0 l) as [Le|Gt].
    + exists t, x, l, c. split; [right; exact Ht|]. split; [exact Et|]. intros t' x' l' c' [<-|H'] E'; [|eauto].
      rewrite E0 in E'. inversion E'; subst. exact Le.
    + exists t0, x0, l0, c0. split; [left; reflexivity|]. split; [exact E0|]. intros t' x' l' c' [<-|H'] E'.
      * rewrite E0 in E'. inversion E'; subst. lia.
      * specialize (M t' x' l' c' H' E'). lia.
  - destruct (IH D) as (t & x & l & c & Ht & Et & M). exists t, x, l, c. split; [right; exact Ht|]. split; [exact Et|].
    intros t' x' l' c' [<-|H'] E'; [elim C0; eauto|eauto].
  - exists t0, x0, l0, c0. split; [left; reflexivity|]. split; [exact E0|]. intros t' x' l' c' [<-|H'] E'.
    * rewrite E0 in E'. inversion E'; subst. lia.
    * elim D. eauto 8.
  - destruct W0 as (t & x & l & c & [<-|H] & E); [elim C0; eauto|elim D; eauto 8].
Qed.

Lemma progress n pol cells0 calls0 L s : Inv n cells0 calls0 L s -> finished s \/ exists i s', step n pol s i s'.
Proof.
  intros I.
  assert (Ok : forall t, In t (s_threads s) -> exists i cs, nth_error (s_threads s) i = Some t /\ thread_ok n (s_cells s) L i cs t).
  { intros t Ht. apply In_nth_error in Ht. destruct Ht as [i Hi]. destruct (nth_error calls0 i) as [cs|] eqn:Ec.
    2:{ apply nth_error_None in Ec. rewrite <- (i_threads _ _ _ _ _ I) in Ec. apply nth_error_None in Ec. congruence. }
    exists i, cs. split; [exact Hi|]. apply (i_ok _ _ _ _ _ I i t cs Hi Ec). }
  (* a thread that is not waiting for a lock can move *)
  assert (Mv : forall t, In t (s_threads s) -> (t_code t = [] /\ t_calls t = []) \/ (exists i s', step n pol s i s') \/ exists x l c, t_code t = ILock x l :: c).
  { intros t Ht. destruct (Ok t Ht) as (i & cs & Hi & V & [(C & H & P)|(pre & C & E & Vc & H & R & P)]).
    - destruct (t_calls t) as [|d ds] eqn:Ed; [left; auto|]. right. left. exists i. eexists. eapply step_call; eauto.
    - right. destruct (t_code t) as [|ins c] eqn:Ec; [congruence|]. pose proof (code_position n _ pre ins c Vc E) as Po.
      pose proof (i_cells _ _ _ _ _ I) as Lc. destruct ins as [x l|x l|k|k m|k].
      + right. eauto.
      + left. exists i. eexists. eapply step_unlock; eauto.
      + left. destruct (p_read _ _ _ _ _ Po k eq_refl) as [K _]. rewrite <- Lc in K. apply nth_error_Some in K.
        destruct (nth_error (s_cells s) k) as [z|] eqn:Ez; [|congruence]. exists i. eexists. eapply step_read; eauto.
      + left. destruct (p_write _ _ _ _ _ Po k) as [K _]; [left; eauto|]. rewrite <- Lc in K. exists i. eexists. eapply step_or; eauto.
      + left. destruct (p_write _ _ _ _ _ Po k) as [K _]; [right; reflexivity|]. rewrite <- Lc in K. exists i. eexists. eapply step_zero; eauto. }
  assert (All : forall ts, (forall t, In t ts -> In t (s_threads s)) ->
     (exists i s', step n pol s i s') \/ (forall t, In t ts -> (t_code t = [] /\ t_calls t = []) \/ exists x l c, t_code t = ILock x l :: c)).
  { induction ts as [|t ts IH]; intros Sub; [right; intros t []|].
    destruct IH as [IH|IH]; [intros; apply Sub; right; assumption|left; exact IH|].
    destruct (Mv t (Sub t (or_introl eq_refl))) as [F|[St|W]]; [|left; exact St|]; right; intros t' [<-|H']; auto. }
  destruct (All (s_threads s) (fun t H => H)) as [St|Wt]; [right; exact St|]. clear All Mv.
  assert (Wd : (exists t x l c, In t (s_threads s) /\ t_code t = ILock x l :: c) \/ finished s).
  { unfold finished. clear Ok. induction (s_threads s) as [|t ts IH]; [right; intros t []|].
    destruct IH as [(t' & x & l & c & H & E)|H]; [intros; apply Wt; right; assumption|left; exists t', x, l, c; split; [right|]; auto|].
    destruct (Wt t (or_introl eq_refl)) as [F|(x & l & c & E)].
    - right. intros t' [<-|Ht']; auto.
    - left. exists t, x, l, c. split; [left; reflexivity|exact E]. }
  destruct Wd as [W|F]; [|left; exact F]. right.
  destruct (max_waiter _ W) as (t & x & l & c & Ht & Et & Mx).
  (* nobody holds l *)
  assert (Fr : lock_free s l).
  { intros t' x' Ht' Hh. destruct (Ok t' Ht') as (i' & cs' & Hi' & V' & [(C & H & P)|(pre & C & E & Vc & H & R & P)]).
    - rewrite H in Hh. contradiction.
    - destruct (Wt t' Ht') as [[F _]|(x2 & l2 & c2 & E2)]; [congruence|]. rewrite E2 in E.
      pose proof (code_position n _ pre _ c2 Vc E) as Po. rewrite H in Hh.
      pose proof (p_lock _ _ _ _ _ Po x2 l2 eq_refl l x' Hh) as Lt. specialize (Mx t' x2 l2 c2 Ht' E2). lia. }
  destruct x.
  - destruct (Ok t Ht) as (i & _ & Hi & _). exists i. eexists. eapply step_lock; eauto.
  - assert (Wr : writer_waits s l \/ ~ writer_waits s l).
    { unfold writer_waits. clear - l. induction (s_threads s) as [|t ts IH]; [right; intros (t & c & [] & _)|].
      destruct IH as [(t' & c & H & E)|H]; [left; exists t', c; split; [right|]; auto|].
      destruct (t_code t) as [|[[|] l'|x l'|k|k m|k] c] eqn:E; try (right; intros (t' & c' & [->|H'] & E'); [congruence|apply H; eauto]).
      destruct (Nat.eq_dec l' l) as [->|Nl].
      - left. exists t, c. split; [left; reflexivity|exact E].
      - right; intros (t' & c' & [->|H'] & E'); [congruence|apply H; eauto]. }
    destruct Wr as [(t' & c' & Ht' & Et')|Nw].
    + destruct (Ok t' Ht') as (i & _ & Hi & _). exists i. eexists. eapply step_lock; eauto.
    + destruct (Ok t Ht) as (i & _ & Hi & _). exists i. eexists. eapply step_lock_shared; eauto.
      intros t' Ht'. apply Fr. exact Ht'.
Qed.

(** every step brings the end nearer *)
Definition work (n : nat) (t : thread) : nat := length (t_code t) + list_sum (map (fun d => S (length (code n d))) (t_calls t)).
Definition total_work (n : nat) (s : sys) : nat := list_sum (map (work n) (s_threads s)).
Lemma sum_upd (f : thread -> nat) l i t t' : nth_error l i = Some t -> f t' < f t -> list_sum (map f (upd l i t')) < list_sum (map f l).
Proof.
  revert i. induction l as [|x l IH]; intros [|i] H Lt; cbn in H; try discriminate.
  - inversion H; subst. cbn. unfold list_sum. lia.
  - specialize (IH i H Lt). cbn. unfold list_sum in *. lia.
Qed.
Lemma step_work n pol s i s' : step n pol s i s' -> total_work n s' < total_work n s.
Proof.
  intros St. unfold total_work. destruct St as [t d ds Ht Hc Hd|t l c Ht Hc Fr|t l c Ht Hc Fr Po|t x l c Ht Hc|t k c z Ht Hc Hz|t k m c Ht Hc Hk|t k c Ht Hc Hk];
    cbn [set_thread s_threads]; eapply sum_upd; try exact Ht; unfold work, list_sum; cbn [t_code t_calls]; rewrite Hc, ?Hd; cbn [length map fold_right]; lia.
Qed.

Inductive nsteps (n : nat) (pol : sys -> nat -> bool) (s : sys) : nat -> sys -> Prop :=
| nsteps_O : nsteps n pol s 0 s
| nsteps_S k s1 i s2 : nsteps n pol s k s1 -> step n pol s1 i s2 -> nsteps n pol s (S k) s2.
Lemma nsteps_bound n pol s k s' : nsteps n pol s k s' -> k + total_work n s' <= total_work n s.
Proof. induction 1 as [|k s1 i s2 _ IH St]; [lia|]. apply step_work in St. lia. Qed.

(** ** The log as a sequential history of the graph *)
Definition vert (ps : list polygon) (i : nat) : coord := nth i (polygon_vertices ps) (mkC 0 0).
Definition hist_of (ps : list polygon) (d : dcall) : list gop :=
  match d with
  | DAdd i j m => [GAddDir (vert ps i) (vert ps j) m]
  | DRem i j => [GRemDir (vert ps i) (vert ps j)]
  | _ => []
  end.
Definition history (ps : list polygon) (L : list entry) : list gop := flat_map (fun e => hist_of ps (snd (fst e))) L.

(** what a call reports when it has read [r] *)
Definition observed (g : graph) (d : dcall) (r : list Z) : Prop :=
  match d with
  | DHas i j => forall a b, a <> b -> coordinate_to_index g a = Ok i -> coordinate_to_index g b = Ok j ->
      has_edge g a b = Ok (negb (last r 0 =? 0)%Z)
  | DCross i j => forall a b, a <> b -> coordinate_to_index g a = Ok i -> coordinate_to_index g b = Ok j ->
      is_edge_meridian_crossing g a b = Ok (last r 0 =? CONNECTED_OVER_MERIDIAN)%Z
  | DNeigh i => forall v, coordinate_to_index g v = Ok i ->
      get_neighbors g v = Ok (map snd (filter (fun p => negb (fst p =? 0)%Z) (combine r (g_index g))))
  | _ => True
  end.

Lemma vert_idx ps a i : idx ps a = Some i -> vert ps i = a.
Proof. intros H. apply idx_sound in H. unfold vert. apply nth_error_nth, H. Qed.

Section Sequential.
Variable ps : list polygon.
Let n := length (polygon_vertices ps).
Let G cells := set_cells (make_graph ps) cells.

Lemma c2i_G cells c i : coordinate_to_index (G cells) c = Ok i <-> idx ps c = Some i.
Proof.
  unfold coordinate_to_index, G, set_cells, make_graph, idx. cbn [g_map]. destruct (assoc _ _); split; intros H; inversion H; reflexivity.
Qed.
Lemma cell_get_G cells k : k < length cells -> cell_get (G cells) k = Ok (cell cells k).
Proof.
  intros H. unfold cell_get, G, set_cells. cbn [g_cells]. unfold cell. destruct (nth_error cells k) eqn:E.
  - rewrite (nth_error_nth _ _ _ E). reflexivity.
  - apply nth_error_None in E. lia.
Qed.

Lemma neighbors_loop cells index : length cells = n * n -> index < n -> forall m k acc, k + m = n ->
  foldM (fun acc i_offset =>
           bind (cell_get (G cells) (i_offset + index * n)%nat) (fun x =>
           if (x =? 0)%Z then Ok acc
           else bind (index_to_coordinate (G cells) i_offset) (fun c => Ok (acc ++ [c])))) (seq k m) acc =
  Ok (acc ++ map snd (filter (fun p => negb (fst p =? 0)%Z) (combine (map (cell cells) (seq (index * n + k) m)) (skipn k (polygon_vertices ps))))).
Proof.
  intros L Hi. set (body := fun acc i_offset => _). induction m as [|m IH]; intros k acc E.
  - cbn. rewrite app_nil_r. reflexivity.
  - cbn [seq]. cbn [foldM]. unfold body at 1.
    assert (Ek : exists c, nth_error (polygon_vertices ps) k = Some c).
    { destruct (nth_error (polygon_vertices ps) k) eqn:D; eauto. apply nth_error_None in D. fold n in D. lia. }
    destruct Ek as [c Ec].
    rewrite cell_get_G by (rewrite L; nia). cbn [bind].
    assert (Es : skipn k (polygon_vertices ps) = c :: skipn (S k) (polygon_vertices ps)).
    { clear - Ec. revert k Ec. induction (polygon_vertices ps) as [|x l IHl]; intros [|k] Ec; cbn in Ec; try discriminate.
      - inversion Ec; subst. reflexivity.
      - cbn [skipn]. rewrite (IHl k Ec). reflexivity. }
    rewrite Es. cbn [map combine filter fst].
    replace (k + index * n) with (index * n + k) by lia.
    assert (Ei : index_to_coordinate (G cells) k = Ok c).
    { unfold index_to_coordinate, G, set_cells, make_graph. cbn [g_index]. rewrite Ec. reflexivity. }
    destruct (cell cells (index * n + k) =? 0)%Z; cbn [negb].
    + cbn [bind]. rewrite IH by lia. replace (S (index * n + k)) with (index * n + S k) by lia. reflexivity.
    + rewrite Ei. cbn [bind]. rewrite IH by lia. replace (S (index * n + k)) with (index * n + S k) by lia.
      cbn [map snd]. rewrite <- app_assoc. reflexivity.
Qed.

Lemma observed_exec cells d : length cells = n * n -> from_coords ps d -> observed (G cells) d (snd (exec n cells d)).
Proof.
  intros L H. destruct d as [i j m|i j|i j|i j|i]; cbn [observed exec snd last]; auto.
  - intros a b N A B. apply c2i_G in A as A'. apply c2i_G in B as B'. unfold has_edge.
    rewrite (proj2 (coord_eqb_neq a b) N), A, B. cbn [bind]. apply idx_sound in A'. apply idx_sound in B'.
    unfold cell_index. change (g_num (G cells)) with n. rewrite cell_get_G by (rewrite L; fold n in A', B'; nia). reflexivity.
  - intros a b N A B. apply c2i_G in A as A'. apply c2i_G in B as B'. unfold is_edge_meridian_crossing.
    rewrite (proj2 (coord_eqb_neq a b) N), A, B. cbn [bind]. apply idx_sound in A'. apply idx_sound in B'.
    unfold cell_index. change (g_num (G cells)) with n. rewrite cell_get_G by (rewrite L; fold n in A', B'; nia). reflexivity.
  - intros v A. apply c2i_G in A as A'. apply idx_sound in A'. unfold get_neighbors. rewrite A. cbn [bind].
    change (g_num (G cells)) with n. rewrite (neighbors_loop cells i L); [|fold n in A'; tauto|lia].
    rewrite Nat.add_0_r. reflexivity.
Qed.

Lemma exec_step cells d : length cells = n * n -> from_coords ps d -> grun (G cells) (hist_of ps d) = Ok (G (fst (exec n cells d))).
Proof.
  intros L H. destruct d as [i j m|i j|i j|i j|i]; cbn [hist_of exec fst]; try reflexivity.
  - destruct H as (a & b & N & A & B). rewrite (vert_idx ps a i A), (vert_idx ps b j B).
    unfold grun. cbn [foldM]. unfold gstep_catch. cbn [gstep]. unfold add_directed_edge.
    rewrite (proj2 (coord_eqb_neq a b) N), (proj2 (c2i_G cells a i) A), (proj2 (c2i_G cells b j) B). cbn [bind].
    apply idx_sound in A. apply idx_sound in B. fold n in A, B. unfold cell_index. change (g_num (G cells)) with n.
    rewrite cell_get_G by (rewrite L; nia). cbn [bind]. unfold cell_set, G, set_cells. cbn [g_cells].
    rewrite (proj2 (Nat.ltb_lt _ _)) by (rewrite L; nia). reflexivity.
  - destruct H as (a & b & N & A & B). rewrite (vert_idx ps a i A), (vert_idx ps b j B).
    unfold grun. cbn [foldM]. unfold gstep_catch. cbn [gstep]. unfold remove_directed_edge.
    rewrite (proj2 (coord_eqb_neq a b) N), (proj2 (c2i_G cells a i) A), (proj2 (c2i_G cells b j) B). cbn [bind].
    apply idx_sound in A. apply idx_sound in B. fold n in A, B. unfold cell_index. change (g_num (G cells)) with n.
    unfold cell_set, G, set_cells. cbn [g_cells].
    rewrite (proj2 (Nat.ltb_lt _ _)) by (rewrite L; nia). reflexivity.
Qed.

Lemma exec_length m cells d : length (fst (exec m cells d)) = length cells.
Proof. destruct d; cbn [exec fst]; rewrite ?upd_length; reflexivity. Qed.

Lemma grun_app g h1 h2 : grun g (h1 ++ h2) = bind (grun g h1) (fun g' => grun g' h2).
Proof. unfold grun. revert g. induction h1 as [|o h IH]; intros g; [reflexivity|]. cbn [app foldM]. destruct (gstep_catch g o); cbn [bind]; auto. Qed.

Lemma replay_history cells L cells' : length cells = n * n -> Forall (fun e => from_coords ps (snd (fst e))) L -> replays n cells L cells' ->
  grun (G cells) (history ps L) = Ok (G cells') /\
  forall L1 i d r L2, L = L1 ++ (i, d, r) :: L2 -> exists g1, grun (G cells) (history ps L1) = Ok g1 /\ observed g1 d r.
Proof.
  revert cells. induction L as [|[[t d] r] L IH]; intros cells Hl Fc H; cbn [replays] in H.
  - subst cells'. split; [reflexivity|]. intros [|] * D; discriminate D.
  - destruct H as [E H]. inversion Fc as [|? ? F1 F2]; subst x l. cbn [fst snd] in F1.
    destruct (IH (fst (exec n cells d))) as [I1 I2]; [rewrite exec_length; exact Hl|exact F2|exact H|].
    cbn [history flat_map fst snd]. fold (history ps L). split.
    + rewrite grun_app, (exec_step cells d Hl F1). cbn [bind]. exact I1.
    + intros [|e L1] i d' r' L2 D; cbn [app] in D; inversion D; subst.
      * exists (G cells). split; [reflexivity|]. apply observed_exec; assumption.
      * destruct (I2 L1 i d' r' L2 eq_refl) as (g1 & E1 & O1). exists g1. split; [|exact O1].
        cbn [history flat_map fst snd]. fold (history ps L1). rewrite grun_app, (exec_step cells d Hl F1). cbn [bind]. exact E1.
Qed.
End Sequential.

Lemma calls_in_Forall (P : dcall -> Prop) (calls0 : list (list dcall)) L : Forall (Forall P) calls0 ->
  (forall e, In e L -> fst (fst e) < length calls0) ->
  (forall i cs, nth_error calls0 i = Some cs -> exists rest, calls_in i L ++ rest = cs) ->
  Forall (fun e => P (snd (fst e))) L.
Proof.
  intros F B C. apply Forall_forall. intros [[i d] r] H. cbn [fst snd]. specialize (B _ H). cbn in B.
  destruct (nth_error calls0 i) as [cs|] eqn:E; [|apply nth_error_None in E; lia].
  destruct (C i cs E) as [rest Er]. rewrite Forall_forall in F. pose proof (F cs (nth_error_In _ _ E)) as F'. rewrite Forall_forall in F'.
  apply F'. rewrite <- Er. apply in_or_app. left. unfold calls_in. apply in_map_iff. exists (i, d, r). split; [reflexivity|].
  apply filter_In. split; [exact H|]. cbn. apply Nat.eqb_refl.
Qed.

Lemma logged_threads n pol s L s' : logged n pol s L s' -> forall e, In e L -> fst (fst e) < length (s_threads s).
Proof.
  assert (Len : forall L s', logged n pol s L s' -> length (s_threads s') = length (s_threads s)).
  { induction 1 as [|L1 s1 i s2 _ IH St]; [reflexivity|]. rewrite <- IH. destruct St; cbn; rewrite ?upd_length; reflexivity. }
  induction 1 as [|L1 s1 i s2 Lg IH St]; [intros e []|]. intros e H. apply in_app_or in H. destruct H as [H|H]; [auto|].
  rewrite <- (Len _ _ Lg). unfold commit in H. destruct (nth_error (s_threads s1) i) as [t|] eqn:E; [|contradiction].
  assert (B : i < length (s_threads s1)) by (apply nth_error_Some; congruence).
  destruct (t_code t) as [|[x l|x l|k|k m|k] c]; try contradiction; destruct (existsb is_access c); try contradiction; destruct H as [<-|[]]; exact B.
Qed.

Lemma linearise ps pol calls L s : logged (length (polygon_vertices ps)) pol (start (make_graph ps) calls) L s ->
  grun (make_graph ps) (history ps L) = Ok (set_cells (make_graph ps) (s_cells s)) /\
  (forall L1 i d r L2, L = L1 ++ (i, d, r) :: L2 ->
     exists g1, grun (make_graph ps) (history ps L1) = Ok g1 /\ observed g1 d r) /\
  (forall i cs, nth_error calls i = Some cs -> exists rest, calls_in i L ++ rest = flat_map (dcalls (make_graph ps)) cs /\ (finished s -> rest = [])) /\
  (forall e, In e L -> fst (fst e) < length calls) /\
  Forall (fun e => from_coords ps (snd (fst e))) L.
Proof.
  intros Lg. pose proof (repr_make ps) as R. pose proof (start_inv ps _ _ calls R) as I0.
  pose proof (logged_inv _ pol _ _ _ _ _ I0 Lg) as I. set (n := length (polygon_vertices ps)) in *.
  change (g_num (make_graph ps)) with n in I.
  assert (B : forall e, In e L -> fst (fst e) < length calls).
  { intros e He. pose proof (logged_threads _ _ _ _ _ Lg e He) as X. unfold start in X. cbn [s_threads] in X. rewrite map_length in X. exact X. }
  assert (P : forall i cs, nth_error calls i = Some cs -> exists rest, calls_in i L ++ rest = flat_map (dcalls (make_graph ps)) cs /\ (finished s -> rest = [])).
  { intros i cs E. assert (E' : nth_error (all_dcalls (make_graph ps) calls) i = Some (flat_map (dcalls (make_graph ps)) cs)).
    { unfold all_dcalls. rewrite nth_error_map, E. reflexivity. }
    assert (Ht : exists t, nth_error (s_threads s) i = Some t).
    { destruct (nth_error (s_threads s) i) eqn:D; eauto. apply nth_error_None in D. rewrite (i_threads _ _ _ _ _ I) in D. apply nth_error_None in D. congruence. }
    destruct Ht as [t Ht]. destruct (i_ok _ _ _ _ _ I i t _ Ht E') as [_ [(C & _ & X)|(pre & C & _ & _ & _ & _ & X)]].
    - exists (t_calls t). split; [exact X|]. intros F. apply (F t (nth_error_In _ _ Ht)).
    - exists (pending t ++ t_calls t). split; [exact X|]. intros F. destruct (F t (nth_error_In _ _ Ht)); congruence. }
  assert (Fc : Forall (fun e => from_coords ps (snd (fst e))) L).
  { apply (calls_in_Forall (from_coords ps) (all_dcalls (make_graph ps) calls)).
    - apply Forall_forall. intros cs Hc. unfold all_dcalls in Hc. apply in_map_iff in Hc. destruct Hc as (c & <- & _).
      apply flat_Forall. intros x _. eapply dcalls_from; eauto.
    - intros e He. unfold all_dcalls. rewrite map_length. auto.
    - intros i cs E. unfold all_dcalls in E. rewrite nth_error_map in E. destruct (nth_error calls i) eqn:D; [|discriminate].
      cbn in E. inversion E; subst. destruct (P i l D) as (rest & X & _). eauto. }
  assert (Lc : length (g_cells (make_graph ps)) = n * n) by apply (r_len _ _ _ R).
  destruct (replay_history ps (g_cells (make_graph ps)) L (s_cells s) Lc Fc (i_replay _ _ _ _ _ I)) as [H1 H2].
  change (set_cells (make_graph ps) (g_cells (make_graph ps))) with (make_graph ps) in *. auto.
Qed.

(** ** Additions only *)
Definition no_removal (o : gop) : Prop := match o with GAdd _ _ _ | GAddDir _ _ _ => True | _ => False end.
Lemma adds_of_norem a b h f : Forall no_removal h ->
  (In f (adds_since_removal a b h) <-> exists o, In o h /\ event_of a b o = Some (Some f)).
Proof.
  induction 1 as [|o h Ho Hh IH]; simpl.
  - split; [contradiction|]. intros (o & [] & _).
  - destruct (event_of a b o) as [[m|]|] eqn:E.
    + simpl. rewrite IH. split.
      * intros [->|(o' & H & H')]; eauto.
      * intros (o' & [->|H] & H'); [left; congruence|right; eauto].
    + destruct o; simpl in *; try contradiction; repeat (destruct (same _ _ _ _); cbn [orb] in E; try discriminate E).
    + rewrite IH. split.
      * intros (o' & H & H'); eauto.
      * intros (o' & [->|H] & H'); [congruence|eauto].
Qed.
Lemma norem_same_graph ps h1 h2 : Forall no_removal h1 -> Forall no_removal h2 ->
  (forall a b f, a <> b -> In a (polygon_vertices ps) -> In b (polygon_vertices ps) ->
     (exists o, In o h1 /\ event_of a b o = Some (Some f)) <-> (exists o, In o h2 /\ event_of a b o = Some (Some f))) ->
  grun (make_graph ps) h1 = grun (make_graph ps) h2.
Proof.
  intros A1 A2 H.
  destruct (grun_spec ps h1) as (F1 & g1 & E1 & R1 & H1).
  destruct (grun_spec ps h2) as (F2 & g2 & E2 & R2 & H2).
  rewrite E1, E2. f_equal.
  assert (G : forall a b f, a <> b -> In a (polygon_vertices ps) -> In b (polygon_vertices ps) ->
     In f (adds_since_removal a b (rev h1)) <-> In f (adds_since_removal a b (rev h2))).
  { intros a b f N Ha Hb. rewrite !adds_of_norem by (apply Forall_rev; assumption). specialize (H a b f N Ha Hb).
    split; intros (o & Ho & Ev); apply in_rev in Ho; destruct H as [H H'];
      [destruct H as (o' & Ho' & Ev')|destruct H' as (o' & Ho' & Ev')]; eauto; exists o'; (split; [apply -> in_rev|]; assumption). }
  apply (repr_ext ps F1 F2 g1 g2 R1 R2). intros i j Hi Hj.
  destruct H1 as [P1 Q1], H2 as [P2 Q2].
  destruct (Z.eq_dec (F1 i j) 0) as [Z1|Z1].
  - destruct (Z.eq_dec (F2 i j) 0) as [Z2|Z2]; [congruence|].
    destruct (Q2 _ _ Z2) as (a & b & N & Ia & Ib).
    rewrite (P1 a b i j N Ia Ib), (P2 a b i j N Ia Ib). apply enc_ext_set. intros f. apply G; eauto using idx_in.
  - destruct (Q1 _ _ Z1) as (a & b & N & Ia & Ib).
    rewrite (P1 a b i j N Ia Ib), (P2 a b i j N Ia Ib). apply enc_ext_set. intros f. apply G; eauto using idx_in.
Qed.

(** the mutating calls among a list of calls *)
Definition ops_in (cs : list gcall) : list gop := flat_map (fun c => match c with COp o => [o] | _ => [] end) cs.

Lemma with_index_in ps a b f d : In d (with_index (make_graph ps) a b f) <->
  a <> b /\ exists i j, idx ps a = Some i /\ idx ps b = Some j /\ d = f i j.
Proof.
  unfold with_index. destruct (coord_eqb a b) eqn:E.
  - split; [intros []|]. intros (N & _). apply coord_eqb_neq in N. congruence.
  - apply coord_eqb_neq in E. rewrite !(c2i_ok _ _ _ _ (repr_make ps)).
    destruct (idx ps a) as [i|], (idx ps b) as [j|]; (split; [intros H|intros (_ & i' & j' & A & B & ->)]); try contradiction; try discriminate.
    + destruct H as [<-|[]]. eauto 8.
    + inversion A; inversion B; subst. left. reflexivity.
Qed.
Lemma dcall_event ps a b i j o f : a <> b -> idx ps a = Some i -> idx ps b = Some j -> no_removal o ->
  (In (DAdd i j f) (dcalls (make_graph ps) (COp o)) <-> event_of a b o = Some (Some f)).
Proof.
  intros N A B R.
  assert (K : forall x y m, In (DAdd i j f) (with_index (make_graph ps) x y (fun i j => DAdd i j m)) <-> x = a /\ y = b /\ m = f).
  { intros x y m. rewrite with_index_in. split.
    - intros (_ & i' & j' & X & Y & E). inversion E; subst. split; [eapply idx_inj; eauto|]. split; [eapply idx_inj; eauto|reflexivity].
    - intros (-> & -> & ->). split; [exact N|]. eauto 8. }
  assert (S : forall x y, same a b x y = true <-> x = a /\ y = b).
  { intros x y. unfold same. rewrite andb_true_iff, !coord_eqb_spec. split; intros [-> ->]; auto. }
  destruct o as [x y m|x y m|x y|x y]; try contradiction; cbn [dcalls event_of].
  - rewrite in_app_iff, !K. destruct (same a b x y) eqn:E1; [|destruct (same a b y x) eqn:E2]; cbn [orb].
    + apply S in E1. destruct E1 as [-> ->]. split; [intros [(_ & _ & ->)|(-> & _)]; congruence|]. intros E. inversion E. auto.
    + apply S in E2. destruct E2 as [-> ->]. split; [intros [(-> & _)|(_ & _ & ->)]; congruence|]. intros E. inversion E. auto.
    + split; [|discriminate]. intros [(-> & -> & _)|(-> & -> & _)].
      * rewrite (proj2 (S a b) (conj eq_refl eq_refl)) in E1. discriminate.
      * rewrite (proj2 (S a b) (conj eq_refl eq_refl)) in E2. discriminate.
  - rewrite K. destruct (same a b x y) eqn:E1.
    + apply S in E1. destruct E1 as [-> ->]. split; [intros (_ & _ & ->); reflexivity|]. intros E. inversion E. auto.
    + split; [|discriminate]. intros (-> & -> & _). rewrite (proj2 (S a b) (conj eq_refl eq_refl)) in E1. discriminate.
Qed.

Lemma in_calls_in i d L : In d (calls_in i L) <-> exists r, In (i, d, r) L.
Proof.
  unfold calls_in. rewrite in_map_iff. split.
  - intros ([[i' d'] r] & E & H). cbn in E. subst d'. apply filter_In in H. destruct H as [H E]. cbn in E. apply Nat.eqb_eq in E. subst. eauto.
  - intros (r & H). exists (i, d, r). split; [reflexivity|]. apply filter_In. split; [exact H|]. cbn. apply Nat.eqb_refl.
Qed.

Lemma in_ops o cs : In o (ops_in cs) <-> In (COp o) cs.
Proof.
  unfold ops_in. rewrite in_flat_map. split.
  - intros ([o'| | | ] & H & E); cbn in E; try contradiction; destruct E as [->|[]]; exact H.
  - intros H. exists (COp o). split; [exact H|left; reflexivity].
Qed.

Lemma concurrent_adds ps pol calls s h : Forall no_removal (ops_in (concat calls)) ->
  steps (length (polygon_vertices ps)) pol (start (make_graph ps) calls) s -> finished s ->
  Permutation h (ops_in (concat calls)) ->
  grun (make_graph ps) h = Ok (set_cells (make_graph ps) (s_cells s)).
Proof.
  intros NR St Fin Pm. apply steps_logged in St. destruct St as [L Lg].
  destruct (linearise ps pol calls L s Lg) as (E & _ & P & B & Fc). rewrite <- E. clear E.
  assert (From : forall d, (exists e, In e L /\ snd (fst e) = d) <-> exists c, In c (concat calls) /\ In d (dcalls (make_graph ps) c)).
  { intros d. split.
    - intros ([[i d'] r] & He & Ed). cbn in Ed. subst d'. pose proof (B _ He) as Bi. cbn in Bi.
      destruct (nth_error calls i) as [cs|] eqn:Ec; [|apply nth_error_None in Ec; lia].
      destruct (P i cs Ec) as (rest & Er & Rn). specialize (Rn Fin). subst rest. rewrite app_nil_r in Er.
      assert (X : In d (calls_in i L)) by (apply in_calls_in; eauto). rewrite Er in X. apply in_flat_map in X. destruct X as (c & Hc & Hd).
      exists c. split; [|exact Hd]. apply in_concat. exists cs. split; [eapply nth_error_In; eauto|exact Hc].
    - intros (c & Hc & Hd). apply in_concat in Hc. destruct Hc as (cs & Hcs & Hc). apply In_nth_error in Hcs. destruct Hcs as [i Ec].
      destruct (P i cs Ec) as (rest & Er & Rn). specialize (Rn Fin). subst rest. rewrite app_nil_r in Er.
      assert (X : In d (calls_in i L)) by (rewrite Er; apply in_flat_map; eauto). apply in_calls_in in X. destruct X as (r & X).
      exists (i, d, r). auto. }
  assert (OpsNR : forall o, In (COp o) (concat calls) -> no_removal o).
  { intros o Ho. rewrite Forall_forall in NR. apply NR, in_ops, Ho. }
  apply norem_same_graph.
  - eapply Permutation_Forall; [symmetry; exact Pm|exact NR].
  - unfold history. apply flat_Forall. intros e He. destruct (proj1 (From (snd (fst e))) (ex_intro _ e (conj He eq_refl))) as (c & Hc & Hd).
    destruct c as [o|a b|a b|v]; cbn [dcalls] in Hd.
    + specialize (OpsNR o Hc). destruct o as [x y m|x y m|x y|x y]; try contradiction; try (apply in_app_or in Hd; destruct Hd as [Hd|Hd]);
        apply with_index_in in Hd; destruct Hd as (_ & i & j & _ & _ & Ed); rewrite Ed; cbn [hist_of]; repeat constructor.
    + apply with_index_in in Hd. destruct Hd as (_ & i & j & _ & _ & Ed). rewrite Ed. constructor.
    + apply with_index_in in Hd. destruct Hd as (_ & i & j & _ & _ & Ed). rewrite Ed. constructor.
    + destruct (coordinate_to_index (make_graph ps) v); [|contradiction|contradiction]. destruct Hd as [Ed|[]]. rewrite <- Ed. constructor.
  - intros a b f N Ha Hb. destruct (idx_complete ps a Ha) as [i Ia]. destruct (idx_complete ps b Hb) as [j Ib].
    transitivity (exists c, In c (concat calls) /\ In (DAdd i j f) (dcalls (make_graph ps) c)).
    + split.
      * intros (o & Ho & Ev). apply (Permutation_in _ Pm), in_ops in Ho. exists (COp o). split; [exact Ho|].
        apply (dcall_event ps a b i j o f N Ia Ib (OpsNR o Ho)), Ev.
      * intros (c & Hc & Hd). destruct c as [o|x y|x y|v].
        -- exists o. split; [apply (Permutation_in _ (Permutation_sym Pm)), in_ops, Hc|].
           apply (dcall_event ps a b i j o f N Ia Ib (OpsNR o Hc)), Hd.
        -- cbn in Hd. apply with_index_in in Hd. destruct Hd as (_ & ? & ? & _ & _ & D). discriminate D.
        -- cbn in Hd. apply with_index_in in Hd. destruct Hd as (_ & ? & ? & _ & _ & D). discriminate D.
        -- cbn in Hd. destruct (coordinate_to_index (make_graph ps) v); [|contradiction|contradiction]. destruct Hd as [D|[]]. discriminate D.
    + rewrite <- From. split.
      * intros (e & He & Ed). exists (GAddDir a b f). split.
        -- unfold history. apply in_flat_map. exists e. split; [exact He|]. rewrite Ed. cbn [hist_of].
           rewrite (vert_idx ps a i Ia), (vert_idx ps b j Ib). left. reflexivity.
        -- cbn [event_of]. unfold same. rewrite !coord_eqb_refl. reflexivity.
      * intros (o & Ho & Ev). unfold history in Ho. apply in_flat_map in Ho. destruct Ho as (e & He & Ho).
        rewrite Forall_forall in Fc. specialize (Fc e He). exists e. split; [exact He|].
        destruct (snd (fst e)) as [i' j' m|i' j'|i' j'|i' j'|i']; cbn [hist_of] in Ho; try contradiction.
        -- destruct Ho as [<-|[]]. destruct Fc as (x & y & _ & X & Y). rewrite (vert_idx ps x i' X), (vert_idx ps y j' Y) in Ev.
           cbn [event_of] in Ev. destruct (same a b x y) eqn:Sm; [|discriminate]. unfold same in Sm. apply andb_true_iff in Sm.
           rewrite !coord_eqb_spec in Sm. destruct Sm as [<- <-]. inversion Ev. congruence.
        -- destruct Ho as [<-|[]]. cbn [event_of] in Ev. destruct (same _ _ _ _); discriminate Ev.
Qed.

Lemma reachable_inv ps pol calls s : steps (length (polygon_vertices ps)) pol (start (make_graph ps) calls) s ->
  exists L, Inv (length (polygon_vertices ps)) (g_cells (make_graph ps)) (all_dcalls (make_graph ps) calls) L s.
Proof.
  intros H. apply steps_logged in H. destruct H as [L Lg]. exists L.
  apply (logged_inv _ pol _ _ _ _ _ (start_inv ps _ _ calls (repr_make ps)) Lg).
Qed.
Lemma steps_nsteps n pol s s' : steps n pol s s' -> exists k, nsteps n pol s k s'.
Proof. induction 1 as [|s i s1 s2 _ (k & IH) St]; [exists 0; constructor|]. exists (S k). econstructor; eauto. Qed.
Lemma nsteps_steps n pol s k s' : nsteps n pol s k s' -> steps n pol s s'.
Proof. induction 1 as [|k s1 i s2 _ IH St]; [constructor|]. econstructor; eauto. Qed.

(** running on ends, whatever choices are made *)
Lemma runs_to_end ps pol calls s : steps (length (polygon_vertices ps)) pol (start (make_graph ps) calls) s ->
  exists s', steps (length (polygon_vertices ps)) pol s s' /\ finished s'.
Proof.
  set (n := length (polygon_vertices ps)). remember (total_work n s) as w eqn:Ew. revert s Ew.
  induction w as [w IH] using lt_wf_ind. intros s Ew H.
  destruct (reachable_inv ps pol calls s H) as [L I]. destruct (progress n pol _ _ _ _ I) as [F|(i & s1 & St)].
  - exists s. split; [constructor|exact F].
  - pose proof (step_work n pol s i s1 St) as W. destruct (IH (total_work n s1)) with (s := s1) as (s' & R & F).
    + lia.
    + reflexivity.
    + econstructor; eauto.
    + exists s'. split; [|exact F]. clear - St R. induction R; [econstructor; [constructor|exact St]|econstructor; eauto].
Qed.
