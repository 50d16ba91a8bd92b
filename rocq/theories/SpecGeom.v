(** Plane geometry used in statements: points with integer coordinates, segments as sets of
    points with rational parameters, written without division. *)
From Coq Require Import ZArith Reals List.
From Verif Require Import Coordinate Segment.
Local Open Scope Z_scope.

(** Normal range ([-180,180] x [-90,90] degrees) and the range of periodic copies. *)
Definition geo (c : coord) : Prop := Z.abs (lon c) <= 180000000 /\ Z.abs (lat c) <= 90000000.
Definition pgeo (c : coord) : Prop := Z.abs (lon c) <= 540000001 /\ Z.abs (lat c) <= 90000000.
Definition pgeo_seg (s : segment) : Prop := pgeo (e1 s) /\ pgeo (e2 s).

(** [p] is the point  ((q-s) a + s b) / q  of the segment, for some 0 <= s <= q, 0 < q. *)
Definition on_closed_segment (s : segment) (p : coord) : Prop :=
  exists q t, 0 < q /\ 0 <= t <= q /\
    q * lon p = (q - t) * lon (e1 s) + t * lon (e2 s) /\
    q * lat p = (q - t) * lat (e1 s) + t * lat (e2 s).

(** the closed segments share a point of the rational plane *)
Definition segments_meet (s o : segment) : Prop :=
  exists q t u, 0 < q /\ 0 <= t <= q /\ 0 <= u <= q /\
    (q - t) * lon (e1 s) + t * lon (e2 s) = (q - u) * lon (e1 o) + u * lon (e2 o) /\
    (q - t) * lat (e1 s) + t * lat (e2 s) = (q - u) * lat (e1 o) + u * lat (e2 o).

(** directions not parallel *)
Definition seg_det (s o : segment) : Z :=
  (lon (e2 s) - lon (e1 s)) * (lat (e2 o) - lat (e1 o)) - (lat (e2 s) - lat (e1 s)) * (lon (e2 o) - lon (e1 o)).
Definition nonparallel (s o : segment) : Prop := seg_det s o <> 0.

Definition flip (s : segment) : segment := mkS (e2 s) (e1 s).

(** twice the signed area of the triangle a b p *)
Definition turn (a b p : coord) : Z :=
  (lon b - lon a) * (lat p - lat a) - (lat b - lat a) * (lon p - lon a).

Definition shift (d : coord) (c : coord) : coord := mkC (lon c + lon d) (lat c + lat d).

(** the real point (x,y) lies on the closed segment *)
Definition on_real (s : segment) (x y : R) : Prop :=
  (exists t, 0 <= t <= 1 /\ x = (1 - t) * IZR (lon (e1 s)) + t * IZR (lon (e2 s)) /\
             y = (1 - t) * IZR (lat (e1 s)) + t * IZR (lat (e2 s)))%R.

(** ** Rings: cyclic lists of vertices *)
Definition vat (vs : list coord) (i : nat) : coord := List.nth i vs (mkC 0 0).
Definition ring_prev (vs : list coord) (i : nat) : coord := vat vs ((i + length vs - 1) mod length vs)%nat.
Definition ring_next (vs : list coord) (i : nat) : coord := vat vs ((i + 1) mod length vs)%nat.

Definition no_repeats (vs : list coord) : Prop :=
  forall i, (i < length vs)%nat -> vat vs i <> ring_next vs i.

(** the vertex lies on the closed segment between its two neighbours *)
Definition straight_at (vs : list coord) (i : nat) : Prop :=
  on_closed_segment (mkS (ring_prev vs i) (ring_next vs i)) (vat vs i).

(** order-preserving selection *)
Inductive subseq {A} : list A -> list A -> Prop :=
| subseq_nil : subseq nil nil
| subseq_take x l l' : subseq l l' -> subseq (x :: l) (x :: l')
| subseq_drop x l l' : subseq l l' -> subseq l (x :: l').

(** twice the signed area (shoelace formula): positive for counter-clockwise rings *)
Fixpoint path_area (l : list coord) : Z :=
  match l with
  | a :: ((b :: _) as l') => (lon a * lat b - lat a * lon b) + path_area l'
  | _ => 0
  end.
Definition ring_area (vs : list coord) : Z :=
  match vs with
  | nil => 0
  | h :: _ => path_area (vs ++ h :: nil)
  end.

(** the ring fits a box of width [W] and height [H] microdegrees *)
Definition extent (vs : list coord) (W H : Z) : Prop :=
  1 <= W /\ forall a b, List.In a vs -> List.In b vs -> Z.abs (lon a - lon b) <= W /\ Z.abs (lat a - lat b) <= H.

(** twice the area, in square microdegrees, exceeds (number of vertices)^2 * (W + H) / 10^7 *)
Definition clear_area (vs : list coord) : Prop :=
  Z.of_nat (length vs) <= 1048576 /\
  exists W H, extent vs W H /\
    Z.of_nat (length vs) * Z.of_nat (length vs) * (W + H) < 10000000 * Z.abs (ring_area vs).

(** longitudes in [-180,180] degrees, latitudes in [-90,90] *)
Definition ngeo (c : coord) : Prop := Z.abs (lon c) <= 180000000 /\ Z.abs (lat c) <= 90000000.
