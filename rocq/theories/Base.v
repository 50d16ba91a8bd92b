(** Outcomes and machine integers shared by the whole model. *)
From Coq Require Import ZArith List Bool Lia.
Import ListNotations.
Local Open Scope Z_scope.

(** C++ exceptions that the modelled code can raise.  Each constructor names the
    [throw] site (or the library function) it stands for. *)
Inductive exn :=
| NotInGraph        (** graph.cpp:226-233 *)
| NotAnEndpoint     (** line_segment.cpp:15-23 *)
| ImproperRange     (** visgraph_generator.cpp:71-96 *)
| BadOptional       (** std::optional::value on nullopt *)
| MapOutOfRange     (** std::unordered_map::at *)
| EmptyIndex        (** spatial_segment_index.cpp closest_segment_to_point *)
| OnLand            (** shortest_path_computer.cpp:174-209 *)
| NoPath            (** shortest_path_computer.cpp:25-126 *)
| FileError         (** graph_serializer.cpp open/map failures *)
| AllocFailure      (** std::length_error or std::bad_alloc from a std::vector *)
| PyValueError      (** Python ValueError *)
| PyTypeError       (** Python TypeError *)
| PyZeroDivision    (** Python ZeroDivisionError *)
| PyFileExists.     (** Python FileExistsError *)

(** Kinds of undefined behaviour. *)
Inductive ub :=
| SignedOverflow
| BadCast           (** float to integer conversion out of range *)
| OutOfBounds       (** operator[] outside the storage *)
| EmptyBegin        (** dereferencing begin() of an empty container *)
| NullDeref
| EscapesParallel.  (** an exception leaves an OpenMP region; in practice std::terminate *)

Inductive res (A : Type) :=
| Ok (a : A)
| Throw (e : exn)
| UB (u : ub).
Arguments Ok {A} a.
Arguments Throw {A} e.
Arguments UB {A} u.

Definition bind {A B} (m : res A) (k : A -> res B) : res B :=
  match m with
  | Ok a => k a
  | Throw e => Throw e
  | UB u => UB u
  end.

Declare Scope res_scope.
Delimit Scope res_scope with res.
Notation "x <- m ;; k" := (bind m (fun x => k))
  (at level 61, m at next level, right associativity) : res_scope.
Notation "' p <- m ;; k" := (bind m (fun p => k))
  (at level 61, p pattern, m at next level, right associativity) : res_scope.
Open Scope res_scope.

(** An OpenMP region (visgraph_generator.cpp:43-64, 86-93, graph.cpp:247-257): an exception must
    be caught by the thread that throws it inside the region, or the program is terminated. *)
Definition in_parallel {A} (m : res A) : res A := match m with Throw _ => UB EscapesParallel | _ => m end.

Definition is_ok {A} (m : res A) : bool := match m with Ok _ => true | _ => false end.

(** Left-to-right monadic loops. *)
Fixpoint foldM {A S} (f : S -> A -> res S) (l : list A) (s : S) : res S :=
  match l with
  | [] => Ok s
  | x :: l' => bind (f s x) (fun s' => foldM f l' s')
  end.

Fixpoint mapM {A B} (f : A -> res B) (l : list A) : res (list B) :=
  match l with
  | [] => Ok []
  | x :: l' => bind (f x) (fun y => bind (mapM f l') (fun ys => Ok (y :: ys)))
  end.

(** Ranges of the fixed-width integer types. *)
Definition INT32_MIN := -2147483648.
Definition INT32_MAX := 2147483647.
Definition INT64_MIN := -9223372036854775808.
Definition INT64_MAX := 9223372036854775807.

Definition in_i32 (z : Z) : bool := (INT32_MIN <=? z) && (z <=? INT32_MAX).
Definition in_i64 (z : Z) : bool := (INT64_MIN <=? z) && (z <=? INT64_MAX).

(** Result of a signed 32/64-bit operation: overflow is undefined behaviour. *)
Definition i32 (z : Z) : res Z := if in_i32 z then Ok z else UB SignedOverflow.
Definition i64 (z : Z) : res Z := if in_i64 z then Ok z else UB SignedOverflow.

(** Unsigned 64-bit wrap-around. *)
Definition u64 (z : Z) : Z := z mod 18446744073709551616.

Lemma bind_ok {A B} (m : res A) (k : A -> res B) b :
  bind m k = Ok b -> exists a, m = Ok a /\ k a = Ok b.
Proof. destruct m; simpl; try discriminate. eauto. Qed.

Lemma i32_ok z : INT32_MIN <= z <= INT32_MAX -> i32 z = Ok z.
Proof.
  intros. unfold i32, in_i32.
  rewrite (proj2 (Z.leb_le _ _)), (proj2 (Z.leb_le _ _)) by lia. reflexivity.
Qed.

Lemma i64_ok z : INT64_MIN <= z <= INT64_MAX -> i64 z = Ok z.
Proof.
  intros. unfold i64, in_i64.
  rewrite (proj2 (Z.leb_le _ _)), (proj2 (Z.leb_le _ _)) by lia. reflexivity.
Qed.

Lemma i32_inv z r : i32 z = Ok r -> r = z /\ INT32_MIN <= z <= INT32_MAX.
Proof.
  unfold i32, in_i32. destruct (_ && _) eqn:E; [|discriminate].
  apply andb_prop in E. destruct E as [E1 E2].
  apply Z.leb_le in E1. apply Z.leb_le in E2. intros H. inversion H. subst. lia.
Qed.

Lemma i64_inv z r : i64 z = Ok r -> r = z /\ INT64_MIN <= z <= INT64_MAX.
Proof.
  unfold i64, in_i64. destruct (_ && _) eqn:E; [|discriminate].
  apply andb_prop in E. destruct E as [E1 E2].
  apply Z.leb_le in E1. apply Z.leb_le in E2. intros H. inversion H. subst. lia.
Qed.

Lemma foldM_app {A S} (f : S -> A -> res S) l1 l2 s :
  foldM f (l1 ++ l2) s = bind (foldM f l1 s) (fun s' => foldM f l2 s').
Proof.
  revert s. induction l1 as [|x l1 IH]; intros; simpl; [reflexivity|].
  destruct (f s x); simpl; auto.
Qed.
