(** Properties of the corner test (C18). *)
From Coq Require Import ZArith Bool List Lia.
From Verif Require Import Base F64 Coordinate Segment Polyline SpecGeom PolylineFacts.
Local Open Scope Z_scope.

(** C18.  Full statement: [point_visible] is false exactly when the direction points into the
    solid, or along an edge past its far end.  Missing, and false of the code (see the two
    refutations): points past the far end by at most a factor 1.000002 count as visible, and
    the determinant deciding reflexivity is a double, so corners that are very flat for their
    size are excluded by [clear_corner].  Between the factors 1.000001999 and 1.000002001 the
    answer depends on rounding and is left open.  Every other direction is covered exactly. *)
Theorem C18_corner_partial : forall v1 v2 v3 p,
  pgeo v1 -> pgeo v2 -> pgeo v3 -> pgeo p -> clear_corner v1 v2 v3 -> p <> v2 ->
  exists b, point_visible (mkPL v1 v2 v3) p = Ok b /\
    (into_solid v1 v2 v3 p -> b = false) /\
    (outside v1 v2 v3 p -> b = true) /\
    (forall w, w = v1 \/ w = v3 -> on_ray v2 w p ->
       (~ past 1000001999 1000000000 v2 w p -> b = true) /\
       (past 1000002001 1000000000 v2 w p -> b = false)).
Proof. exact point_visible_ok. Qed.
Print Assumptions C18_corner_partial.

(** a convex and a reflex corner of 60 degrees size, and a point into the solid *)
Example C18_corner_ex :
  clear_corner (mkC 10000000 60000000) (mkC 10000000 20000000) (mkC 70000000 21000000) /\
  into_solid (mkC 10000000 60000000) (mkC 10000000 20000000) (mkC 70000000 21000000) (mkC 11000000 20500000) /\
  clear_corner (mkC 70000000 21000000) (mkC 10000000 20000000) (mkC 10000000 60000000) /\
  outside (mkC 70000000 21000000) (mkC 10000000 20000000) (mkC 10000000 60000000) (mkC 11000000 20500000) /\
  past 1000002001 1000000000 (mkC 10000000 20000000) (mkC 10000000 60000000) (mkC 10000000 60000081).
Proof.
  split; [split; vm_compute; congruence|]. split; [left; vm_compute; auto|]. split; [split; vm_compute; congruence|].
  split; [|split; [split|]; vm_compute; reflexivity].
  split; [|split; intros [E _]; vm_compute in E; discriminate E].
  intros [(D & _)|(_ & [D|D])]; vm_compute in D; discriminate D.
Qed.

(** every corner with edges up to 30 degrees that is not straight is clear *)
Theorem C18_small_corners : forall v1 v2 v3, turn v1 v2 v3 <> 0 ->
  Z.abs ((lon v2 - lon v1) * (lat v3 - lat v2)) + Z.abs ((lat v2 - lat v1) * (lon v3 - lon v2)) <= 2000000000000000 ->
  clear_corner v1 v2 v3.
Proof. exact clear_small. Qed.
Print Assumptions C18_small_corners.
Example C18_small_corners_ex :
  turn (mkC 0 30000000) (mkC 0 0) (mkC 30000000 29999999) <> 0 /\
  Z.abs ((0 - 0) * (29999999 - 0)) + Z.abs ((0 - 30000000) * (30000000 - 0)) <= 2000000000000000.
Proof. split; vm_compute; congruence. Qed.

(** C18 is false of the code: a point a microdegree past the end of a one degree edge *)
Theorem C18_past_edge_refuted :
  exists v1 v2 v3 p, geo v1 /\ geo v2 /\ geo v3 /\ geo p /\ clear_corner v1 v2 v3 /\
    past 1 1 v2 v1 p /\ point_visible (mkPL v1 v2 v3) p = Ok true.
Proof.
  exists (mkC 0 1000000), (mkC 0 0), (mkC 1000000 0), (mkC 0 1000001).
  repeat (split; [vm_compute; split; congruence|]). split; [split; [split|]; vm_compute; reflexivity|]. vm_compute. reflexivity.
Qed.
Print Assumptions C18_past_edge_refuted.

(** C18 is false of the code: a reflex corner taken for a convex one *)
Theorem C18_flat_corner_refuted :
  exists v1 v2 v3 p, geo v1 /\ geo v2 /\ geo v3 /\ geo p /\
    turn v1 v2 v3 < 0 /\ into_solid v1 v2 v3 p /\ point_visible (mkPL v1 v2 v3) p = Ok true.
Proof.
  exists (mkC (-71921718) (-35621557)), (mkC 0 0), (mkC 71063347 35196421), (mkC (-142985065) (-70817978)).
  do 4 (split; [vm_compute; split; congruence|]). split; [vm_compute; reflexivity|].
  split; [right; split; [vm_compute; reflexivity|left; vm_compute; reflexivity]|]. vm_compute. reflexivity.
Qed.
Print Assumptions C18_flat_corner_refuted.

(** C18 is false of the code at the corner itself: from a reflex corner its own position is
    reported hidden, from a convex one visible *)
Theorem C18_corner_itself_refuted : 
  point_visible (mkPL (mkC 0 1000) (mkC 0 0) (mkC 1000 0)) (mkC 0 0) = Ok true /\
  point_visible (mkPL (mkC 1000 0) (mkC 0 0) (mkC 0 1000)) (mkC 0 0) = Ok false.
Proof. split; vm_compute; reflexivity. Qed.
Print Assumptions C18_corner_itself_refuted.
