(** Model of the locking in [datastructures/graph/graph.cpp]: threads calling the graph's
    methods concurrently, one lock operation or one access to [_neighbors] per step.
    Memory is sequentially consistent; C27 (no races) is what makes that a fair model of
    C++.  The index tables are only read, so looking up an index is not a step. *)
From Coq Require Import ZArith Bool List Arith.
From Verif Require Import Base F64 Coordinate Segment Polygon Graph.
Import ListNotations.
Local Open Scope nat_scope.

(** A call after its two index lookups.  [DAdd] graph.cpp:52-70, [DRem] 86-102, [DHas]
    113-129, [DCross] 144-160, [DNeigh] 199-208. *)
Inductive dcall := DAdd (i j : nat) (m : bool) | DRem (i j : nat) | DHas (i j : nat) | DCross (i j : nat) | DNeigh (i : nat).

(** [ILock true]: unique_lock, [ILock false]: shared_lock.  [IOr k m] writes the last value
    read, combined with the flag (68-70). *)
Inductive instr := ILock (x : bool) (l : nat) | IUnlock (x : bool) (l : nat) | IRead (k : nat) | IOr (k : nat) (m : bool) | IZero (k : nat).

(** graph.cpp:59-65 (and 93-99, 120-126, 151-157): lower index first *)
Definition lock_both (x : bool) (i j : nat) : list instr :=
  if i <? j then [ILock x i; ILock x j] else [ILock x j; ILock x i].
(** the destructors run in reverse order of declaration *)
Definition unlock_both (x : bool) (i j : nat) : list instr := [IUnlock x j; IUnlock x i].

(** the steps of one call; [n] is [_num_coords] *)
Definition code (n : nat) (d : dcall) : list instr :=
  match d with
  | DAdd i j m => lock_both true i j ++ [IRead (i + n * j); IOr (i + n * j) m] ++ unlock_both true i j
  | DRem i j => lock_both true i j ++ [IZero (i + n * j)] ++ unlock_both true i j
  | DHas i j | DCross i j => lock_both false i j ++ [IRead (i + n * j)] ++ unlock_both false i j
  | DNeigh i => [ILock false i] ++ map IRead (seq (i * n) n) ++ [IUnlock false i]
  end.

(** A thread: rest of the current call, values read in it, locks held, the current call, the
    calls still to make. *)
Record thread := mkT { t_code : list instr; t_regs : list Z; t_held : list (nat * bool); t_cur : dcall; t_calls : list dcall }.
Record sys := mkS { s_cells : list Z; s_threads : list thread }.

Definition flag_bits (m : bool) : Z := if m then CONNECTED_OVER_MERIDIAN else CONNECTED.

Fixpoint drop_hold (x : bool) (l : nat) (h : list (nat * bool)) : list (nat * bool) :=
  match h with
  | [] => []
  | (l', x') :: h' => if (l' =? l) && Bool.eqb x' x then h' else (l', x') :: drop_hold x l h'
  end.

(** nobody holds [l] at all; nobody holds it exclusively *)
Definition lock_free (s : sys) (l : nat) : Prop :=
  forall t x, In t (s_threads s) -> ~ In (l, x) (t_held t).
Definition lock_shareable (s : sys) (l : nat) : Prop :=
  forall t, In t (s_threads s) -> ~ In (l, true) (t_held t).
(** a thread is waiting for [l] exclusively *)
Definition writer_waits (s : sys) (l : nat) : Prop :=
  exists t c, In t (s_threads s) /\ t_code t = ILock true l :: c.

Definition set_thread (s : sys) (i : nat) (t : thread) : sys := mkS (s_cells s) (upd (s_threads s) i t).

(** One step of thread [i].  [pol] decides whether a reader may overtake a waiting writer:
    std::shared_mutex leaves that open. *)
Inductive step (n : nat) (pol : sys -> nat -> bool) (s : sys) (i : nat) : sys -> Prop :=
| step_call t d ds : nth_error (s_threads s) i = Some t -> t_code t = [] -> t_calls t = d :: ds ->
    step n pol s i (set_thread s i (mkT (code n d) [] (t_held t) d ds))
| step_lock t l c : nth_error (s_threads s) i = Some t -> t_code t = ILock true l :: c ->
    lock_free s l ->
    step n pol s i (set_thread s i (mkT c (t_regs t) ((l, true) :: t_held t) (t_cur t) (t_calls t)))
| step_lock_shared t l c : nth_error (s_threads s) i = Some t -> t_code t = ILock false l :: c ->
    lock_shareable s l -> pol s l = true \/ ~ writer_waits s l ->
    step n pol s i (set_thread s i (mkT c (t_regs t) ((l, false) :: t_held t) (t_cur t) (t_calls t)))
| step_unlock t x l c : nth_error (s_threads s) i = Some t -> t_code t = IUnlock x l :: c ->
    step n pol s i (set_thread s i (mkT c (t_regs t) (drop_hold x l (t_held t)) (t_cur t) (t_calls t)))
| step_read t k c z : nth_error (s_threads s) i = Some t -> t_code t = IRead k :: c ->
    nth_error (s_cells s) k = Some z ->
    step n pol s i (set_thread s i (mkT c (t_regs t ++ [z]) (t_held t) (t_cur t) (t_calls t)))
| step_or t k m c : nth_error (s_threads s) i = Some t -> t_code t = IOr k m :: c -> k < length (s_cells s) ->
    step n pol s i (mkS (upd (s_cells s) k (Z.lor (last (t_regs t) 0%Z) (flag_bits m)))
                        (upd (s_threads s) i (mkT c (t_regs t) (t_held t) (t_cur t) (t_calls t))))
| step_zero t k c : nth_error (s_threads s) i = Some t -> t_code t = IZero k :: c -> k < length (s_cells s) ->
    step n pol s i (mkS (upd (s_cells s) k 0%Z)
                        (upd (s_threads s) i (mkT c (t_regs t) (t_held t) (t_cur t) (t_calls t)))).

(** any number of steps of any threads *)
Inductive steps (n : nat) (pol : sys -> nat -> bool) : sys -> sys -> Prop :=
| steps_refl s : steps n pol s s
| steps_more s i s1 s2 : steps n pol s s1 -> step n pol s1 i s2 -> steps n pol s s2.

Definition finished (s : sys) : Prop := forall t, In t (s_threads s) -> t_code t = [] /\ t_calls t = [].

(** The calls a thread makes, by coordinates. *)
Inductive gcall := COp (o : gop) | CHas (a b : coord) | CCross (a b : coord) | CNeigh (v : coord).

(** graph.cpp:45-50 and its copies: equal coordinates return at once, an unknown one throws
    before any lock is taken *)
Definition with_index (g : graph) (a b : coord) (f : nat -> nat -> dcall) : list dcall :=
  if coord_eqb a b then [] else
  match coordinate_to_index g a, coordinate_to_index g b with Ok i, Ok j => [f i j] | _, _ => [] end.
Definition dcalls (g : graph) (c : gcall) : list dcall :=
  match c with
  | COp (GAdd a b m) => with_index g a b (fun i j => DAdd i j m) ++ with_index g b a (fun i j => DAdd i j m)
  | COp (GAddDir a b m) => with_index g a b (fun i j => DAdd i j m)
  | COp (GRem a b) => with_index g a b DRem ++ with_index g b a DRem
  | COp (GRemDir a b) => with_index g a b DRem
  | CHas a b => with_index g a b DHas
  | CCross a b => with_index g a b DCross
  | CNeigh v => match coordinate_to_index g v with Ok i => [DNeigh i] | _ => [] end
  end.

(** threads about to make their calls; [t_cur] of a thread that has not started is arbitrary *)
Definition start_thread (g : graph) (cs : list gcall) : thread := mkT [] [] [] (DNeigh 0) (flat_map (dcalls g) cs).
Definition start (g : graph) (calls : list (list gcall)) : sys := mkS (g_cells g) (map (start_thread g) calls).
