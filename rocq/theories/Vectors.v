(** Model of the vector operations of [Coordinate] in degrees that only the Python interface
    uses (code/types/coordinate/coordinate.cpp; bindings.cpp:41-44). *)
From Coq Require Import ZArith.
From Verif Require Import Base F64 Coordinate.

(** coordinate.cpp:66-73 *)
Definition dot_product (a b : coord) : f64 :=
  fadd (fmul (get_longitude a) (get_longitude b)) (fmul (get_latitude a) (get_latitude b)).

(** coordinate.cpp:84-91 *)
Definition cross_product_magnitude (a b : coord) : f64 :=
  fsub (fmul (get_longitude a) (get_latitude b)) (fmul (get_longitude b) (get_latitude a)).
